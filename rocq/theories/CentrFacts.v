(** Lemmas about Centr.v. *)
From Verif Require Import Base BaseFacts Sched Buffers BufFacts Centr CentrSpec.
Open Scope nat_scope.

Lemma slot_lt n r s : r < n -> s < n -> s <> r -> slot r s < n - 1.
Proof. unfold slot. destruct (Nat.ltb_spec s r); lia. Qed.
Lemma slot_mono r s s' : s <> r -> s' <> r -> s < s' -> slot r s < slot r s'.
Proof. unfold slot. destruct (Nat.ltb_spec s r), (Nat.ltb_spec s' r); lia. Qed.
Lemma slot_surj n r i : r < n -> i < n - 1 -> exists s, s < n /\ s <> r /\ slot r s = i.
Proof.
  intros Hr Hi. unfold slot. destruct (Nat.ltb_spec i r).
  - exists i. destruct (Nat.ltb_spec i r); lia.
  - exists (S i). destruct (Nat.ltb_spec (S i) r); lia.
Qed.
Lemma slot_inj r s s' : s <> r -> s' <> r -> slot r s = slot r s' -> s = s'.
Proof. unfold slot. destruct (Nat.ltb_spec s r), (Nat.ltb_spec s' r); lia. Qed.

Lemma filter_all {A} (f : A -> bool) l : (forall x, In x l -> f x = true) -> filter f l = l.
Proof.
  induction l as [|x l IH]; intros H; [reflexivity|]. simpl. rewrite H by (left; reflexivity).
  f_equal. apply IH. intros y Hy. apply H. right; exact Hy.
Qed.

Lemma split_nth {A} i (l : list A) x : nth_error l i = Some x -> l = firstn i l ++ x :: skipn (S i) l.
Proof. intros H. rewrite <- (firstn_skipn_nth _ _ _ H). symmetry. apply firstn_skipn. Qed.

Lemma others_filter n k : k < n -> filter (fun q => negb (Nat.eqb q k)) (seq 0 n) = others n k.
Proof.
  intros Hk. unfold others. replace (seq 0 n) with (seq 0 k ++ k :: seq (S k) (n - S k)).
  2:{ replace n with (k + S (n - S k)) at 2 by lia. rewrite seq_app. reflexivity. }
  rewrite filter_app. cbn [filter]. rewrite Nat.eqb_refl. cbn [negb].
  f_equal; apply filter_all; intros x Hx; apply in_seq in Hx;
  destruct (Nat.eqb_spec x k); simpl; lia.
Qed.

Lemma others_below n k q : k < n -> q < n -> q <> k ->
  filter (fun i => negb (Nat.eqb i k) && (i <? q)) (seq 0 n) = firstn (slot k q) (others n k).
Proof.
  intros Hk Hq Hne.
  assert (E : filter (fun i => negb (Nat.eqb i k) && (i <? q)) (seq 0 n) = filter (fun i => i <? q) (others n k)).
  { rewrite <- others_filter by exact Hk. clear. induction (seq 0 n) as [|x l IH]; [reflexivity|]. cbn [filter].
    destruct (Nat.eqb x k); cbn [negb andb]; [exact IH|]. cbn [filter]. destruct (x <? q); rewrite IH; reflexivity. }
  rewrite E. unfold others, slot. rewrite filter_app, firstn_app, seq_length.
  assert (HF : forall a len, filter (fun i => i <? q) (seq a len) = firstn (q - a) (seq a len)).
  { intros a len. revert a. induction len as [|len IH]; intros a; [rewrite firstn_nil; reflexivity|].
    cbn [seq filter]. destruct (Nat.ltb_spec a q).
    - replace (q - a) with (S (q - S a)) by lia. cbn [firstn]. rewrite IH. reflexivity.
    - replace (q - a) with 0 by lia. cbn [firstn]. rewrite IH. replace (q - S a) with 0 by lia. reflexivity. }
  rewrite !HF. destruct (Nat.ltb_spec q k).
  - f_equal; f_equal; lia.
  - f_equal; [|f_equal; lia]. rewrite !firstn_all2 by (rewrite seq_length; lia). reflexivity.
Qed.

Lemma others_nth n k q : k < n -> q < n -> q <> k -> nth_error (others n k) (slot k q) = Some q.
Proof.
  intros Hk Hq Hne. unfold others, slot. destruct (Nat.ltb_spec q k).
  - rewrite nth_error_app1 by (rewrite seq_length; lia). rewrite (nth_error_nth' _ 0) by (rewrite seq_length; lia). rewrite seq_nth by lia. reflexivity.
  - rewrite nth_error_app2 by (rewrite seq_length; lia). rewrite seq_length.
    rewrite (nth_error_nth' _ 0) by (rewrite seq_length; lia). rewrite seq_nth by lia. f_equal. lia.
Qed.

Lemma others_In n k q : k < n -> (In q (others n k) <-> q < n /\ q <> k).
Proof. intros Hk. unfold others. rewrite in_app_iff, !in_seq. lia. Qed.

Section M.
  Variable A : Type.
  Notation matrix := (list (list A)).

  Lemma sbs_length r (ms : list matrix) : length (side_by_side r ms) = r.
  Proof. unfold side_by_side. rewrite map_length, seq_length. reflexivity. Qed.

  Lemma nth_error_sbs r (ms : list matrix) i : i < r -> nth_error (side_by_side r ms) i = Some (flat_map (fun m => nth i m []) ms).
  Proof.
    intros Hi. unfold side_by_side. rewrite nth_error_map, (nth_error_nth' _ 0) by (rewrite seq_length; exact Hi).
    rewrite seq_nth by exact Hi. reflexivity.
  Qed.

  Lemma sbs_nil r : side_by_side r ([] : list matrix) = repeat [] r.
  Proof.
    unfold side_by_side. simpl. generalize 0. induction r as [|r IH]; intros s; [reflexivity|]. simpl. rewrite IH. reflexivity.
  Qed.

  Lemma hstack_sbs r (ms : list matrix) m : length m = r -> hstack (side_by_side r ms) m = Ok (side_by_side r (ms ++ [m])).
  Proof.
    intros Hm. unfold hstack. rewrite sbs_length, Hm, Nat.eqb_refl. f_equal. apply nth_error_ext. intros i.
    destruct (Nat.ltb_spec i r) as [Hi|Hi].
    - rewrite nth_error_map, (nth_error_sbs r (ms ++ [m])) by exact Hi.
      assert (Hc : nth_error (combine (side_by_side r ms) m) i = Some (flat_map (fun m => nth i m []) ms, nth i m [])).
      { assert (H1 := nth_error_sbs r ms i Hi). assert (H2 : nth_error m i = Some (nth i m [])) by (apply nth_error_nth'; lia).
        revert H1 H2. generalize (flat_map (fun m => nth i m []) ms) (nth i m []) (side_by_side r ms). clear.
        intros x y l. revert m l. induction i as [|i IH]; intros [|b m] [|a l] H1 H2; try discriminate; simpl in *; [congruence | auto]. }
      rewrite Hc. simpl. rewrite flat_map_app. simpl. rewrite app_nil_r. reflexivity.
    - transitivity (@None (list A)); [|symmetry]; apply nth_error_None; [|rewrite sbs_length; lia].
      rewrite map_length, combine_length, sbs_length. lia.
  Qed.

  Lemma hstack_length (a b c : matrix) : hstack a b = Ok c -> length b = length a.
  Proof. unfold hstack. destruct (Nat.eqb_spec (length a) (length b)); [congruence | discriminate]. Qed.

  Lemma width_flat_map (ms : list matrix) (ws : list nat) r i :
    Forall2 (fun m w => is_matrix r w m) ms ws -> i < r -> length (flat_map (fun m => nth i m []) ms) = list_sum ws.
  Proof.
    intros H Hi. induction H as [|m w ms ws [H1 H2] HF IH]; [reflexivity|]. simpl. rewrite app_length, IH. f_equal.
    rewrite Forall_forall in H2. apply H2, nth_In. lia.
  Qed.

  Lemma cols_sbs r (pre post : list matrix) m wpre w :
    Forall2 (fun m w => is_matrix r w m) pre wpre -> is_matrix r w m ->
    cols (list_sum wpre) (list_sum wpre + w) (side_by_side r (pre ++ m :: post)) = m.
  Proof.
    intros Hpre [Hm Hw]. unfold cols. apply nth_error_ext. intros i. rewrite nth_error_map.
    destruct (Nat.ltb_spec i r) as [Hi|Hi].
    - rewrite nth_error_sbs by exact Hi. simpl. rewrite (nth_error_nth' m []) by lia. f_equal.
      rewrite flat_map_app. simpl. unfold slice. rewrite skipn_app, (width_flat_map pre wpre r i Hpre Hi), Nat.sub_diag.
      rewrite skipn_all2 by (rewrite (width_flat_map pre wpre r i Hpre Hi); lia). simpl.
      replace (list_sum wpre + w - list_sum wpre) with w by lia.
      assert (Hrow : length (nth i m []) = w) by (rewrite Forall_forall in Hw; apply Hw, nth_In; lia).
      rewrite firstn_app, Hrow, Nat.sub_diag, <- Hrow, firstn_all. simpl. apply app_nil_r.
    - transitivity (@None (list A)); [|symmetry; apply nth_error_None; lia].
      assert (E : nth_error (side_by_side r (pre ++ m :: post)) i = None) by (apply nth_error_None; rewrite sbs_length; lia).
      rewrite E. reflexivity.
  Qed.

  Lemma foldM_nil {S E} (f : S -> E -> res S) st : foldM f [] st = Ok st.
  Proof. reflexivity. Qed.

  Lemma foldM_ext_in {S E} (f g : S -> E -> res S) l st :
    (forall s e, In e l -> f s e = g s e) -> foldM f l st = foldM g l st.
  Proof.
    revert st; induction l as [|e l IH]; intros st H; [reflexivity|]. simpl. rewrite H by (left; reflexivity).
    destruct (g st e); simpl; [|reflexivity]. apply IH. intros s x Hx. apply H. right; exact Hx.
  Qed.

  (** skipping one element of the loop range *)
  Lemma foldM_skip {S} (f : S -> nat -> res S) n k st :
    k < n -> (forall s, f s k = Ok s) -> foldM f (seq 0 n) st = foldM f (others n k) st.
  Proof.
    intros Hk Hf. unfold others. replace (seq 0 n) with (seq 0 k ++ k :: seq (1 + k) (n - (1 + k))).
    2:{ replace n with (k + Datatypes.S (n - (1 + k))) at 2 by lia. rewrite seq_app. reflexivity. }
    rewrite !foldM_app. destruct (foldM f (seq 0 k) st); simpl; [|reflexivity]. rewrite Hf. reflexivity.
  Qed.

  (** ** Broadcast of raw signals *)
  Definition cshaped (n : nat) (bufs : list (list matrix)) : Prop :=
    length bufs = n /\ Forall (fun bq => length bq = n - 1) bufs.

  Lemma fill_centr_aux k chunk n qs bufs :
    k < n -> cshaped n bufs -> NoDup qs -> (forall q, In q qs -> q < n) ->
    exists bufs',
      foldM (fun bufs q => if Nat.eqb q k then Ok bufs
        else do bq <- get bufs q; do b <- get bq (slot q k); Ok (upd q (upd (slot q k) (b ++ chunk) bq) bufs)) qs bufs = Ok bufs' /\
      cshaped n bufs' /\
      forall r s b, r < n -> s < n -> s <> r ->
        (exists br, nth_error bufs r = Some br /\ nth_error br (slot r s) = Some b) ->
        (exists br, nth_error bufs' r = Some br /\ nth_error br (slot r s) = Some (if memN r qs && Nat.eqb s k then b ++ chunk else b)).
  Proof.
    intros Hk. revert bufs. induction qs as [|q qs IH]; intros bufs [Hl HF] Hnd Hq.
    - exists bufs. split; [reflexivity|]. split; [split; assumption|]. intros r s b _ _ _ H. exact H.
    - apply NoDup_cons_iff in Hnd. destruct Hnd as [Hnq Hnd']. cbn [foldM].
      destruct (Nat.eqb_spec q k) as [->|Hqk].
      + cbn [bind]. destruct (IH bufs (conj Hl HF) Hnd' (fun x Hx => Hq x (or_intror Hx))) as [b' [E [S1 H]]].
        exists b'. split; [exact E|]. split; [exact S1|]. intros r s b Hr Hs Hsr HB. specialize (H r s b Hr Hs Hsr HB).
        unfold memN. simpl existsb. fold (memN r qs).
        destruct (Nat.eqb_spec r k) as [->|]; [|exact H].
        assert (E2 : memN k qs = false) by (apply memN_notIn; exact Hnq). rewrite E2 in H.
        destruct (Nat.eqb_spec s k); [congruence | exact H].
      + assert (Hqn := Hq q (or_introl eq_refl)).
        destruct (nth_error bufs q) as [bq|] eqn:Ebq; [|apply nth_error_None in Ebq; lia].
        rewrite Forall_forall in HF. assert (Hbq := HF _ (nth_error_In _ _ Ebq)).
        destruct (nth_error bq (slot q k)) as [b|] eqn:Eb.
        2:{ apply nth_error_None in Eb. pose proof (slot_lt n q k Hqn Hk ltac:(congruence)). lia. }
        rewrite (get_some _ _ _ Ebq). cbn [bind]. rewrite (get_some _ _ _ Eb). cbn [bind].
        set (b1 := upd q (upd (slot q k) (b ++ chunk) bq) bufs).
        assert (S1 : cshaped n b1).
        { split; [unfold b1; rewrite upd_length; exact Hl|]. apply Forall_forall. intros x Hx. apply In_nth_error in Hx.
          destruct Hx as [i Hi]. unfold b1 in Hi. rewrite upd_nth in Hi. destruct (Nat.eqb_spec q i) as [Eqi|].
          - rewrite <- Eqi, Ebq in Hi. injection Hi as <-. rewrite upd_length. exact Hbq.
          - apply HF. eapply nth_error_In; exact Hi. }
        destruct (IH b1 S1 Hnd' (fun x Hx => Hq x (or_intror Hx))) as [b' [E [S2 H]]].
        exists b'. split; [exact E|]. split; [exact S2|]. intros r s b0 Hr Hs Hsr HB.
        unfold memN. simpl existsb. fold (memN r qs).
        destruct (Nat.eqb_spec r q) as [->|Hrq].
        * assert (E2 : memN q qs = false) by (apply memN_notIn; exact Hnq). cbn [orb andb].
          destruct HB as [br [HB1 HB2]]. assert (br = bq) by congruence. subst br.
          assert (HB' : exists br, nth_error b1 q = Some br /\ nth_error br (slot q s) = Some (if Nat.eqb s k then b0 ++ chunk else b0)).
          { exists (upd (slot q k) (b ++ chunk) bq). split; [unfold b1; rewrite upd_nth, Nat.eqb_refl, Ebq; reflexivity|].
            rewrite upd_nth. destruct (Nat.eqb_spec s k) as [->|Hsk].
            - rewrite Nat.eqb_refl, Eb. congruence.
            - destruct (Nat.eqb_spec (slot q k) (slot q s)) as [Eq|]; [|exact HB2].
              apply slot_inj in Eq; [congruence | congruence | exact Hsr]. }
          specialize (H q s _ Hr Hs Hsr HB'). rewrite E2 in H. exact H.
        * cbn [orb]. apply H; try assumption. destruct HB as [br [HB1 HB2]]. exists br. split; [|exact HB2].
          unfold b1. rewrite upd_nth. destruct (Nat.eqb_spec q r); [congruence | exact HB1].
  Qed.

  Lemma fill_centr_spec n k chunk bufs :
    k < n -> cshaped n bufs ->
    exists bufs', fill_centr n k chunk bufs = Ok bufs' /\ cshaped n bufs' /\
      forall r s b, r < n -> s < n -> s <> r ->
        (exists br, nth_error bufs r = Some br /\ nth_error br (slot r s) = Some b) ->
        (exists br, nth_error bufs' r = Some br /\ nth_error br (slot r s) = Some (if Nat.eqb s k then b ++ chunk else b)).
  Proof.
    intros Hk Hs. destruct (fill_centr_aux k chunk n (seq 0 n) bufs Hk Hs (seq_NoDup _ _)) as [b' [E [S1 H]]].
    { intros q Hq. apply in_seq in Hq. lia. }
    exists b'. split; [exact E|]. split; [exact S1|]. intros r s b Hr Hs' Hsr HB. specialize (H r s b Hr Hs' Hsr HB).
    assert (E2 : memN r (seq 0 n) = true) by (apply memN_In, in_seq; lia). rewrite E2 in H. exact H.
  Qed.

  (** ** Incoming signals *)
  Variable zero : A.

  (** What the spec says about one sender. *)
  Definition frame_of (nsens : list nat) (first : bool) (Ndft Ns : Z) (prev buf : nat -> matrix) (q : nat) : res (matrix * Z) :=
    assemble (repeat zero (nth q nsens 0)) first Ndft Ns (prev q) (buf q).

  Lemma assemble_width c first Ndft Ns prev (buf : matrix) frame flag :
    (0 < Ndft)%Z -> Forall (fun row => length row = c) buf -> (first = false -> Forall (fun row => length row = c) prev) ->
    assemble (repeat zero c) first Ndft Ns prev buf = Ok (frame, flag) -> is_matrix (Z.to_nat Ndft) c frame.
  Proof.
    intros HN Hb Hp H. apply assemble_spec in H; [|exact HN]. destruct H as [H1 [_ [H2 H3]]]. split; [lia|].
    destruct (Z_le_gt_dec (Z.of_nat (length buf)) Ndft) as [L|L].
    - rewrite (H2 L). apply Forall_app. split; [|exact Hb]. destruct first.
      + apply Forall_forall. intros x Hx. apply repeat_spec in Hx. subst x. apply repeat_length.
      + specialize (Hp eq_refl). rewrite Forall_forall in *. intros x Hx. apply Hp.
        rewrite <- (firstn_skipn (length prev - (Z.to_nat Ndft - length buf)) prev). apply in_or_app. right; exact Hx.
    - destruct (H3 ltac:(lia)) as [_ ->]. rewrite Forall_forall in *. intros x Hx. apply Hb.
      rewrite <- (firstn_skipn (length buf - Z.to_nat Ndft) buf). apply in_or_app. right; exact Hx.
  Qed.

  Lemma assemble_prev_irrelevant Ndft Ns prev prev' (z : list A) buf :
    assemble z true Ndft Ns prev buf = assemble z true Ndft Ns prev' buf.
  Proof. reflexivity. Qed.

  Lemma prev_block n k nsens Ndft (prev : nat -> matrix) q :
    k < n -> length nsens = n -> q < n -> q <> k ->
    (forall q, q < n -> q <> k -> is_matrix (Z.to_nat Ndft) (nth q nsens 0) (prev q)) ->
    let idxStart := if Nat.eqb (slot k q) 0 then 0
                    else sum_sensors nsens (filter (fun i => negb (Nat.eqb i k) && (i <? q)) (seq 0 n)) in
    cols idxStart (idxStart + nth q nsens 0) (side_by_side (Z.to_nat Ndft) (map prev (others n k))) = prev q.
  Proof.
    intros Hk Hn Hq Hne Hprev idxStart.
    assert (E : idxStart = list_sum (map (fun q => nth q nsens 0) (firstn (slot k q) (others n k)))).
    { unfold idxStart, sum_sensors. rewrite others_below by assumption. destruct (Nat.eqb_spec (slot k q) 0) as [->|]; reflexivity. }
    rewrite E. set (pre := firstn (slot k q) (others n k)).
    assert (Hsplit : others n k = pre ++ q :: skipn (S (slot k q)) (others n k)).
    { unfold pre. apply split_nth. apply others_nth; assumption. }
    rewrite Hsplit, map_app. cbn [map].
    apply cols_sbs; [|apply Hprev; assumption].
    assert (Hin : forall x, In x pre -> x < n /\ x <> k).
    { intros x Hx. apply others_In; [exact Hk|]. rewrite Hsplit. apply in_or_app. left; exact Hx. }
    clear Hsplit E. induction pre as [|x pre IH]; simpl; constructor.
    - apply Hprev; apply Hin; left; reflexivity.
    - apply IH. intros y Hy. apply Hin. right; exact Hy.
  Qed.

  Lemma process_centr_aux n k nsens first Ndft Ns yc bufs (prev buf : nat -> matrix) qs ms fl :
    (0 < Ndft)%Z -> k < n -> length nsens = n ->
    (forall q, q < n -> q <> k -> nth_error bufs (slot k q) = Some (buf q)) ->
    (forall q, In q qs -> q < n /\ q <> k) ->
    (first = false -> yc = side_by_side (Z.to_nat Ndft) (map prev (others n k)) /\
       forall q, q < n -> q <> k -> is_matrix (Z.to_nat Ndft) (nth q nsens 0) (prev q)) ->
    foldM (fun acc q =>
      if Nat.eqb q k then Ok acc
      else
        do b <- get bufs (slot k q);
        let idxStart := if Nat.eqb (slot k q) 0 then O
                        else sum_sensors nsens (filter (fun i => negb (Nat.eqb i k) && (i <? q)) (seq 0 n)) in
        let idxEnd := idxStart + nth q nsens O in
        do r <- assemble (repeat zero (nth q nsens O)) first Ndft Ns (cols idxStart idxEnd yc) b;
        do yk <- hstack (fst acc) (fst r);
        Ok (yk, upd q (snd r) (snd acc)))
      qs (side_by_side (Z.to_nat Ndft) ms, fl)
    = (do rs <- mapM (frame_of nsens first Ndft Ns prev buf) qs;
       Ok (side_by_side (Z.to_nat Ndft) (ms ++ map fst rs),
           fold_left (fun f p => upd (fst p) (snd (snd p)) f) (combine qs rs) fl)).
  Proof.
    intros HN Hk Hn Hbuf Hqs Hprev. revert ms fl. induction qs as [|q qs IH]; intros ms fl.
    - simpl. rewrite app_nil_r. reflexivity.
    - destruct (Hqs q (or_introl eq_refl)) as [Hq Hne]. cbn [foldM mapM].
      destruct (Nat.eqb_spec q k); [congruence|].
      rewrite (get_some _ _ _ (Hbuf q Hq Hne)). cbn [bind]. cbv zeta.
      set (idxStart := if Nat.eqb (slot k q) 0 then 0 else sum_sensors nsens (filter (fun i => negb (Nat.eqb i k) && (i <? q)) (seq 0 n))).
      assert (EA : assemble (repeat zero (nth q nsens 0)) first Ndft Ns (cols idxStart (idxStart + nth q nsens 0) yc) (buf q)
                   = frame_of nsens first Ndft Ns prev buf q).
      { unfold frame_of. destruct first; [apply assemble_prev_irrelevant|].
        destruct (Hprev eq_refl) as [-> HM]. f_equal. apply (prev_block n k nsens Ndft prev q); assumption. }
      rewrite EA. unfold frame_of at 1 2. destruct (assemble (repeat zero (nth q nsens 0)) first Ndft Ns (prev q) (buf q)) as [[f g]|e] eqn:Ef; cbn [bind fst snd]; [|reflexivity].
      assert (Hf : length f = Z.to_nat Ndft) by (apply assemble_spec in Ef; [lia | exact HN]).
      rewrite (hstack_sbs _ ms f Hf). cbn [bind]. rewrite IH by (intros x Hx; apply Hqs; right; exact Hx).
      destruct (mapM (frame_of nsens first Ndft Ns prev buf) qs) as [rs|]; cbn [bind]; [|reflexivity].
      rewrite <- app_assoc. reflexivity.
  Qed.

  Lemma process_centr_spec k nsens first Ndft Ns yc bufs (prev buf : nat -> matrix) :
    let n := length nsens in
    (0 < Ndft)%Z -> k < n ->
    (forall q, q < n -> q <> k -> nth_error bufs (slot k q) = Some (buf q)) ->
    (first = false -> yc = side_by_side (Z.to_nat Ndft) (map prev (others n k)) /\
       forall q, q < n -> q <> k -> is_matrix (Z.to_nat Ndft) (nth q nsens 0) (prev q)) ->
    process_centr zero nsens k first Ndft Ns yc bufs
    = (do rs <- mapM (frame_of nsens first Ndft Ns prev buf) (others n k);
       Ok (side_by_side (Z.to_nat Ndft) (map fst rs),
           fold_left (fun f p => upd (fst p) (snd (snd p)) f) (combine (others n k) rs) (repeat 0%Z n))).
  Proof.
    intros n HN Hk Hbuf Hprev. unfold process_centr. fold n. rewrite (foldM_skip _ n k) by (try exact Hk; intros s; rewrite Nat.eqb_refl; reflexivity).
    rewrite <- sbs_nil.
    refine (eq_trans (process_centr_aux n k nsens first Ndft Ns yc bufs prev buf (others n k) [] (repeat 0%Z n) HN Hk eq_refl Hbuf _ Hprev) _).
    - intros q Hq. apply others_In in Hq; [exact Hq | exact Hk].
    - reflexivity.
  Qed.

  Lemma fold_upd_nth (g : nat -> Z) qs : forall (f : list Z) i,
    NoDup qs -> (forall q, In q qs -> q < length f) ->
    nth_error (fold_left (fun f p => upd (fst p) (snd p) f) (map (fun q => (q, g q)) qs) f) i
    = if memN i qs then Some (g i) else nth_error f i.
  Proof.
    induction qs as [|q qs IH]; intros f i Hnd Hq; [reflexivity|]. apply NoDup_cons_iff in Hnd. destruct Hnd as [Hn Hnd'].
    cbn [map fold_left fst snd]. rewrite IH; [|exact Hnd'|intros x Hx; rewrite upd_length; apply Hq; right; exact Hx].
    unfold memN. simpl existsb. fold (memN i qs). destruct (Nat.eqb_spec i q) as [->|Hne]; cbn [orb].
    - assert (E : memN q qs = false) by (apply memN_notIn; exact Hn). rewrite E. apply upd_nth_same. apply Hq; left; reflexivity.
    - destruct (memN i qs); [reflexivity|]. apply upd_nth_other. congruence.
  Qed.

  Lemma others_NoDup n k : k < n -> NoDup (others n k).
  Proof. intros Hk. rewrite <- others_filter by exact Hk. apply NoDup_filter, seq_NoDup. Qed.

  (** readable form: every sender handled on its own, put side by side in order *)
  Lemma process_centr_frames k nsens first Ndft Ns yc bufs (prev buf : nat -> matrix) yk fl :
    let n := length nsens in
    (0 < Ndft)%Z -> k < n ->
    (forall q, q < n -> q <> k -> nth_error bufs (slot k q) = Some (buf q) /\ Forall (fun row => length row = nth q nsens 0) (buf q)) ->
    (first = false -> yc = side_by_side (Z.to_nat Ndft) (map prev (others n k)) /\
       forall q, q < n -> q <> k -> is_matrix (Z.to_nat Ndft) (nth q nsens 0) (prev q)) ->
    process_centr zero nsens k first Ndft Ns yc bufs = Ok (yk, fl) ->
    exists (fr : nat -> matrix) (flag : nat -> Z),
      yk = side_by_side (Z.to_nat Ndft) (map fr (others n k)) /\
      (forall q, q < n -> q <> k ->
         assemble (repeat zero (nth q nsens 0)) first Ndft Ns (prev q) (buf q) = Ok (fr q, flag q) /\
         is_matrix (Z.to_nat Ndft) (nth q nsens 0) (fr q) /\ nth_error fl q = Some (flag q)) /\
      nth_error fl k = Some 0%Z /\ length fl = n.
  Proof.
    intros n HN Hk Hbuf Hprev H.
    rewrite (process_centr_spec k nsens first Ndft Ns yc bufs prev buf HN Hk (fun q a b => proj1 (Hbuf q a b)) Hprev) in H. fold n in H.
    destruct (bind_ok _ _ _ H) as [rs [Hrs E]]. injection E as <- <-.
    set (get_r := fun q => nth (slot k q) rs ([], 0%Z)).
    assert (HG : forall q, q < n -> q <> k -> frame_of nsens first Ndft Ns prev buf q = Ok (get_r q)).
    { intros q Hq Hne. destruct (mapM_nth _ _ _ _ _ Hrs (others_nth n k q Hk Hq Hne)) as [r [Hr Hf]].
      unfold get_r. rewrite (nth_error_nth _ _ _ Hr). exact Hf. }
    assert (Ers : rs = map get_r (others n k)).
    { assert (HM : mapM (frame_of nsens first Ndft Ns prev buf) (others n k) = mapM (fun q => Ok (get_r q)) (others n k)).
      { apply mapM_ext. intros q Hq. apply others_In in Hq; [|exact Hk]. apply HG; tauto. }
      rewrite HM, mapM_Ok_map in Hrs. congruence. }
    exists (fun q => fst (get_r q)), (fun q => snd (get_r q)).
    assert (EC : fold_left (fun f p => upd (fst p) (snd (snd p)) f) (combine (others n k) rs) (repeat 0%Z n)
            = fold_left (fun f p => upd (fst p) (snd p) f) (map (fun q => (q, snd (get_r q))) (others n k)) (repeat 0%Z n)).
    { rewrite Ers. clear. generalize (repeat 0%Z n). induction (others n k) as [|q qs IH]; intros f; [reflexivity|]. simpl. apply IH. }
    rewrite EC. assert (Hnd := others_NoDup n k Hk).
    assert (Hlt : forall q, In q (others n k) -> q < length (repeat 0%Z n)) by (intros q Hq; rewrite repeat_length; apply others_In in Hq; tauto).
    split; [rewrite Ers, map_map; reflexivity|]. split; [|split].
    - intros q Hq Hne. specialize (HG q Hq Hne). unfold frame_of in HG. rewrite <- surjective_pairing. split; [exact HG|]. split.
      + destruct (get_r q) as [f g] eqn:Eg. simpl. eapply assemble_width; [exact HN | apply (Hbuf q Hq Hne) | | exact HG].
        intros E. destruct (Hprev E) as [_ HM]. apply (HM q Hq Hne).
      + rewrite fold_upd_nth by assumption. assert (E : memN q (others n k) = true) by (apply memN_In, others_In; tauto). rewrite E. reflexivity.
    - rewrite fold_upd_nth by assumption. assert (E : memN k (others n k) = false) by (apply memN_notIn; rewrite others_In by exact Hk; tauto).
      rewrite E. rewrite nth_error_repeat by exact Hk. reflexivity.
    - clear. generalize (map (fun q => (q, snd (get_r q))) (others n k)). intros l.
      assert (G : forall f, length (fold_left (fun f p => upd (fst p) (snd p) f) l f) = length f).
      { induction l as [|x l IH]; intros f; [reflexivity|]. simpl. rewrite IH. apply upd_length. }
      rewrite G. apply repeat_length.
  Qed.

  (** ** Stacking *)
  Lemma list_sum_firstn_S l c x : nth_error l c = Some x -> list_sum (firstn (S c) l) = list_sum (firstn c l) + x.
  Proof.
    revert c; induction l as [|y l IH]; intros [|c] H; try discriminate; simpl in *.
    - injection H as <-. lia.
    - rewrite (IH c H). lia.
  Qed.

  Lemma build_ycentr_spec k nsens Ndft (local : matrix) (fr : nat -> matrix) :
    let n := length nsens in
    k < n -> length local = Z.to_nat Ndft ->
    (forall q, q < n -> q <> k -> is_matrix (Z.to_nat Ndft) (nth q nsens 0) (fr q)) ->
    build_ycentr nsens k Ndft local (side_by_side (Z.to_nat Ndft) (map fr (others n k)))
    = Ok (side_by_side (Z.to_nat Ndft) (map (fun q => if Nat.eqb q k then local else fr q) (seq 0 n))).
  Proof.
    intros n Hk Hl Hfr. unfold build_ycentr. fold n. set (so := sensors_others nsens k).
    set (r := Z.to_nat Ndft) in *. set (yc := side_by_side r (map fr (others n k))).
    set (g := fun q => if Nat.eqb q k then local else fr q).
    assert (Eso : so = map (fun q => nth q nsens 0) (others n k)) by (unfold so, sensors_others; fold n; rewrite others_filter by exact Hk; reflexivity).
    assert (Hblock : forall q, q < n -> q <> k ->
      cols (list_sum (firstn (slot k q) so)) (list_sum (firstn (S (slot k q)) so)) yc = fr q).
    { intros q Hq Hne. rewrite (list_sum_firstn_S so (slot k q) (nth q nsens 0)).
      2:{ rewrite Eso, nth_error_map, (others_nth n k q Hk Hq Hne). reflexivity. }
      assert (Hsplit := split_nth (slot k q) (others n k) q (others_nth n k q Hk Hq Hne)).
      unfold yc. rewrite Hsplit at 1. rewrite map_app. cbn [map]. rewrite Eso, firstn_map. apply cols_sbs; [|apply Hfr; assumption].
      assert (Hin : forall x, In x (firstn (slot k q) (others n k)) -> x < n /\ x <> k).
      { intros x Hx. apply others_In; [exact Hk|]. rewrite Hsplit. apply in_or_app. left; exact Hx. }
      clear Hsplit. induction (firstn (slot k q) (others n k)) as [|x pre IH]; simpl; constructor.
      - apply Hfr; apply Hin; left; reflexivity.
      - apply IH. intros y Hy. apply Hin. right; exact Hy. }
    assert (HL : forall m, m <= n ->
      foldM (fun acc q => if Nat.eqb q k then do y <- hstack (fst acc) local; Ok (y, snd acc)
        else do y <- hstack (fst acc) (cols (list_sum (firstn (snd acc) so)) (list_sum (firstn (S (snd acc)) so)) yc); Ok (y, S (snd acc)))
        (seq 0 m) (repeat [] r, 0)
      = Ok (side_by_side r (map g (seq 0 m)), if k <? m then m - 1 else m)).
    { induction m as [|m IH]; intros Hm; [rewrite <- sbs_nil; reflexivity|].
      rewrite seq_S, foldM_app, IH by lia. cbn [bind foldM Nat.add fst snd].
      rewrite map_app. cbn [map]. destruct (Nat.eqb_spec m k) as [->|Hne].
      - rewrite (hstack_sbs r _ local Hl). cbn [bind]. unfold g at 3. rewrite Nat.eqb_refl.
        destruct (Nat.ltb_spec k k), (Nat.ltb_spec k (S k)); try lia. do 2 f_equal. lia.
      - replace (if k <? m then m - 1 else m) with (slot k m) by (unfold slot; destruct (Nat.ltb_spec k m), (Nat.ltb_spec m k); lia).
        rewrite (Hblock m ltac:(lia) Hne). rewrite (hstack_sbs r _ (fr m)) by (apply Hfr; lia). cbn [bind].
        unfold g at 3. destruct (Nat.eqb_spec m k); [congruence|]. do 2 f_equal.
        unfold slot. destruct (Nat.ltb_spec m k), (Nat.ltb_spec k (S m)); lia. }
    specialize (HL n (le_n n)).
    match goal with |- bind ?x _ = _ => replace x with (Ok (side_by_side r (map g (seq 0 n)), if k <? n then n - 1 else n)) end.
    reflexivity.
  Qed.
End M.
