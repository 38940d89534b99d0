(** Lemmas about Buffers.v. *)
From Verif Require Import Base BaseFacts Sched Buffers BufSpec.
Open Scope Z_scope.

Lemma index_of_ok k l i : index_of k l = Ok i -> nth_error l i = Some k.
Proof.
  revert i; induction l as [|x l IH]; intros i H; [discriminate|]. simpl in H.
  destruct (Nat.eqb_spec x k) as [->|].
  - injection H as <-. reflexivity.
  - destruct (bind_ok _ _ _ H) as [j [Hj E]]. injection E as <-. simpl. auto.
Qed.

Lemma index_of_total k l : In k l -> exists i, index_of k l = Ok i.
Proof.
  induction l as [|x l IH]; intros H; [destruct H|]. simpl. destruct (Nat.eqb_spec x k) as [->|]; [eauto|].
  destruct H as [->|H]; [congruence|]. destruct (IH H) as [i ->]. simpl. eauto.
Qed.

Lemma NoDup_nth_inj {A} (l : list A) i j x : NoDup l -> nth_error l i = Some x -> nth_error l j = Some x -> i = j.
Proof.
  intros Hn Hi Hj. rewrite NoDup_nth_error in Hn. apply Hn; [apply nth_error_Some; congruence | congruence].
Qed.

Section F.
  Variable A : Type.
  Variable zero : A.

  Definition shaped (nb : list (list nat)) (bufs : buffers A) : Prop :=
    Forall2 (fun l bk => length bk = length l) nb bufs.

  Lemma Forall2_nth {X Y} (P : X -> Y -> Prop) l l' i x :
    Forall2 P l l' -> nth_error l i = Some x -> exists y, nth_error l' i = Some y /\ P x y.
  Proof.
    intros H; revert i; induction H as [|a b l l' Hab Hl IH]; intros i Hi; [destruct i; discriminate|].
    destruct i; simpl in *; [injection Hi as <-; eauto | auto].
  Qed.

  Lemma Forall2_nth_r {X Y} (P : X -> Y -> Prop) l l' i y :
    Forall2 P l l' -> nth_error l' i = Some y -> exists x, nth_error l i = Some x /\ P x y.
  Proof.
    intros H; revert i; induction H as [|a b l l' Hab Hl IH]; intros i Hi; [destruct i; discriminate|].
    destruct i; simpl in *; [injection Hi as <-; eauto | auto].
  Qed.

  Lemma Forall2_upd {X Y} (P : X -> Y -> Prop) l l' i x y :
    Forall2 P l l' -> nth_error l i = Some x -> P x y -> Forall2 P l (upd i y l').
  Proof.
    intros H; revert i; induction H as [|a b l l' Hab Hl IH]; intros i Hi Hp; [destruct i; discriminate|].
    destruct i; simpl in *; [injection Hi as <-; constructor; auto | constructor; auto].
  Qed.

  Lemma upd_nth {X} (l : list X) i j x :
    nth_error (upd i x l) j = if Nat.eqb i j then (match nth_error l j with Some _ => Some x | None => None end) else nth_error l j.
  Proof.
    revert i j; induction l as [|a l IH]; intros i j; [destruct i, j; simpl; try destruct (Nat.eqb _ _); reflexivity|].
    destruct i, j; simpl; try reflexivity. apply IH.
  Qed.

  Lemma link_buffer nb bufs k idx q : shaped nb bufs -> link nb k idx q -> exists b, buffer_at bufs k idx b.
  Proof.
    intros Hs [l [Hl Hi]]. destruct (Forall2_nth _ _ _ _ _ Hs Hl) as [bk [Hb E]].
    destruct (nth_error bk idx) as [b|] eqn:Eb; [exists b, bk; auto|].
    apply nth_error_None in Eb. assert (idx < length l)%nat by (apply nth_error_Some; congruence). lia.
  Qed.

  Lemma buffer_at_fun (bufs : buffers A) k idx b b' : buffer_at bufs k idx b -> buffer_at bufs k idx b' -> b = b'.
  Proof. intros [x [H1 H2]] [y [H3 H4]]. congruence. Qed.

  Lemma fill_one_spec nb k chunk bufs q lk :
    symmetric_net nb -> shaped nb bufs -> nth_error nb k = Some lk -> In q lk ->
    exists bufs', fill_one nb k chunk bufs q = Ok bufs' /\ shaped nb bufs' /\
      forall k' idx s b, link nb k' idx s -> buffer_at bufs k' idx b ->
        buffer_at bufs' k' idx (if Nat.eqb k' q && Nat.eqb s k then b ++ chunk else b).
  Proof.
    intros [Hw Hsym] Hsh Hk Hq. destruct (Hw _ _ Hk) as [_ [_ Hr]]. specialize (Hr q Hq).
    destruct (nth_error nb q) as [lq|] eqn:Elq; [|apply nth_error_None in Elq; lia].
    assert (Hin : In k lq) by (apply (Hsym k q lk lq Hk Elq); exact Hq).
    destruct (index_of_total _ _ Hin) as [i Hi]. pose proof (index_of_ok _ _ _ Hi) as Hi'.
    destruct (Forall2_nth _ _ _ _ _ Hsh Elq) as [bq [Hbq Elen]].
    destruct (nth_error bq i) as [b|] eqn:Eb.
    2:{ apply nth_error_None in Eb. assert (i < length lq)%nat by (apply nth_error_Some; congruence). lia. }
    exists (upd q (upd i (b ++ chunk) bq) bufs).
    unfold fill_one. rewrite (get_some _ _ _ Elq). cbn [bind]. rewrite Hi. cbn [bind].
    rewrite (get_some _ _ _ Hbq). cbn [bind]. rewrite (get_some _ _ _ Eb). cbn [bind].
    split; [reflexivity|]. split.
    - eapply Forall2_upd; [exact Hsh | exact Elq | rewrite upd_length; exact Elen].
    - intros k' idx s b0 [l [Hl Hidx]] [bk [Hbk Hb0]].
      destruct (Nat.eqb_spec k' q) as [->|Hne]; cbn [andb].
      + assert (l = lq) by congruence. subst l. assert (bk = bq) by congruence. subst bk.
        exists (upd i (b ++ chunk) bq). split; [rewrite upd_nth, Nat.eqb_refl, Hbq; reflexivity|].
        destruct (Nat.eqb_spec s k) as [->|Hs].
        * assert (idx = i) by (eapply NoDup_nth_inj; [apply (Hw _ _ Elq) | eassumption | eassumption]). subst idx.
          rewrite upd_nth, Nat.eqb_refl, Eb. congruence.
        * assert (i <> idx) by congruence. rewrite upd_nth. destruct (Nat.eqb_spec i idx); [congruence | exact Hb0].
      + exists bk. split; [|exact Hb0]. rewrite upd_nth. destruct (Nat.eqb_spec q k'); [congruence | exact Hbk].
  Qed.

  Lemma fill_all_spec nb k chunk lk qs bufs :
    symmetric_net nb -> shaped nb bufs -> nth_error nb k = Some lk -> incl qs lk -> NoDup qs ->
    exists bufs', fill_all nb k chunk qs bufs = Ok bufs' /\ shaped nb bufs' /\
      forall k' idx s b, link nb k' idx s -> buffer_at bufs k' idx b ->
        buffer_at bufs' k' idx (if memN k' qs && Nat.eqb s k then b ++ chunk else b).
  Proof.
    intros Hnet Hsh Hk. revert bufs Hsh. induction qs as [|q qs IH]; intros bufs Hsh Hin Hnd.
    - exists bufs. split; [reflexivity|]. split; [exact Hsh|]. intros; simpl; assumption.
    - destruct (fill_one_spec nb k chunk bufs q lk Hnet Hsh Hk (Hin q (or_introl eq_refl))) as [b1 [E1 [S1 H1]]].
      inversion Hnd as [|? ? Hnq Hnd']; subst.
      destruct (IH b1 S1 (fun x Hx => Hin x (or_intror Hx)) Hnd') as [b2 [E2 [S2 H2]]].
      exists b2. split; [simpl; rewrite E1; exact E2|]. split; [exact S2|].
      intros k' idx s b Hl Hb. specialize (H1 _ _ _ _ Hl Hb). specialize (H2 _ _ _ _ Hl H1).
      simpl memN. unfold memN. simpl existsb. fold (memN k' qs).
      destruct (Nat.eqb_spec k' q) as [->|Hne]; cbn [orb andb] in *.
      + assert (E : memN q qs = false) by (apply memN_notIn; exact Hnq). rewrite E in H2. exact H2.
      + exact H2.
  Qed.

  Lemma link_sym nb k' idx s : symmetric_net nb -> link nb k' idx s -> exists ls, nth_error nb s = Some ls /\ In k' ls.
  Proof.
    intros [Hw Hsym] [l [Hl Hi]]. destruct (Hw _ _ Hl) as [_ [_ Hr]].
    specialize (Hr s (nth_error_In _ _ Hi)). destruct (nth_error nb s) as [ls|] eqn:E; [|apply nth_error_None in E; lia].
    exists ls. split; [reflexivity|]. apply (Hsym k' s l ls Hl E). eapply nth_error_In; exact Hi.
  Qed.

  Lemma fill_buffers_spec nb k chunk bufs :
    symmetric_net nb -> shaped nb bufs -> (k < length nb)%nat ->
    exists bufs', fill_buffers nb k chunk bufs = Ok bufs' /\ shaped nb bufs' /\
      forall k' idx s b, link nb k' idx s -> buffer_at bufs k' idx b ->
        buffer_at bufs' k' idx (if Nat.eqb s k then b ++ chunk else b).
  Proof.
    intros Hnet Hsh Hk. destruct (nth_error nb k) as [lk|] eqn:Ek; [|apply nth_error_None in Ek; lia].
    destruct (fill_all_spec nb k chunk lk lk bufs Hnet Hsh Ek (incl_refl _)) as [b' [E [S H]]].
    { apply (proj1 Hnet _ _ Ek). }
    exists b'. split; [unfold fill_buffers; rewrite (get_some _ _ _ Ek); exact E|]. split; [exact S|].
    intros k' idx s b Hl Hb. specialize (H _ _ _ _ Hl Hb).
    destruct (Nat.eqb_spec s k) as [->|]; [|rewrite andb_false_r in H; exact H].
    destruct (link_sym _ _ _ _ Hnet Hl) as [ls [Hls Hin]].
    assert (ls = lk) by congruence. subst ls. apply memN_In in Hin. rewrite Hin in H. exact H.
  Qed.

  (** ** Frame assembly *)
  Lemma py_from_neg_length (l : list A) (n : Z) :
    0 < n -> length (py_from (- n) l) = Z.to_nat (Z.min n (Z.of_nat (length l))).
  Proof.
    intros Hn. unfold py_from, py_bound. rewrite skipn_length.
    destruct (Z.ltb_spec (- n) 0); [|lia]. lia.
  Qed.

  Lemma py_from_neg_skipn (l : list A) (n : Z) :
    0 < n -> n <= Z.of_nat (length l) -> py_from (- n) l = skipn (length l - Z.to_nat n) l.
  Proof.
    intros Hn Hl. unfold py_from, py_bound. f_equal. destruct (Z.ltb_spec (- n) 0); lia.
  Qed.

  Lemma assemble_spec first Ndft Ns prev buf frame flag :
    0 < Ndft ->
    assemble zero first Ndft Ns prev buf = Ok (frame, flag) ->
    Z.of_nat (length frame) = Ndft /\
    flag = Z.of_nat (length buf) - (if first then Ndft else Ns) /\
    (Z.of_nat (length buf) <= Ndft ->
       frame = (if first then repeat zero (Z.to_nat Ndft - length buf)
                else skipn (length prev - (Z.to_nat Ndft - length buf)) prev) ++ buf) /\
    (Ndft < Z.of_nat (length buf) -> first = true /\ frame = skipn (length buf - Z.to_nat Ndft) buf).
  Proof.
    intros HN H. unfold assemble in H. set (B := Z.of_nat (length buf)) in *.
    match type of H with (if ?c then Ok ?r else _) = _ => destruct c eqn:Ec; [|discriminate]; injection H as H end.
    destruct first.
    - destruct (Z.eqb_spec B Ndft) as [E|E]; [|destruct (Z.ltb_spec B Ndft) as [L|L]].
      + injection H as <- <-. split; [lia|]. split; [lia|]. split; [|lia]. intros _.
        replace (Z.to_nat Ndft - length buf)%nat with 0%nat by lia. reflexivity.
      + injection H as <- <-. simpl fst in Ec. split; [lia|]. split; [lia|]. split; [|lia]. intros _.
        f_equal. f_equal. lia.
      + injection H as <- <-. simpl fst in Ec. split; [lia|]. split; [lia|]. split; [lia|]. intros _.
        split; [reflexivity|]. apply py_from_neg_skipn; lia.
    - assert (Hflag : (if B =? Ns then 0 else if B <? Ns then -1 * Z.abs (Ns - B) else Z.abs (Ns - B)) = B - Ns).
      { destruct (Z.eqb_spec B Ns); [lia|]. destruct (Z.ltb_spec B Ns); lia. }
      destruct (Z.ltb_spec 0 (Ndft - B)) as [L|L].
      + injection H as <- <-. simpl fst in Ec. split; [lia|]. split; [exact Hflag|]. split; [|lia]. intros _.
        f_equal. rewrite app_length in Ec. fold B in Ec.
        assert (Hp : Z.of_nat (length (py_from (- (Ndft - B)) prev)) = Ndft - B) by lia.
        rewrite py_from_neg_length in Hp by lia.
        rewrite py_from_neg_skipn by lia. f_equal. lia.
      + injection H as <- <-. simpl fst in Ec. split; [lia|]. split; [exact Hflag|]. split.
        * intros _. replace (Z.to_nat Ndft - length buf)%nat with 0%nat by lia.
          rewrite Nat.sub_0_r, skipn_all. reflexivity.
        * lia.
  Qed.

  Lemma assemble_ok first Ndft Ns prev buf :
    0 < Ndft -> (first = false -> Z.of_nat (length prev) = Ndft \/ Z.of_nat (length buf) = Ndft) ->
    (first = true \/ Z.of_nat (length buf) <= Ndft) ->
    exists r, assemble zero first Ndft Ns prev buf = Ok r.
  Proof.
    intros HN Hp Hb. unfold assemble. set (B := Z.of_nat (length buf)).
    match goal with |- exists r, (if ?c then Ok ?x else _) = _ => assert (E : c = true); [|rewrite E; eauto] end.
    apply Z.eqb_eq. destruct first.
    - destruct (Z.eqb_spec B Ndft); [simpl; lia|]. destruct (Z.ltb_spec B Ndft); simpl.
      + rewrite app_length, repeat_length. lia.
      + rewrite py_from_neg_length by lia. lia.
    - destruct Hb as [Hb|Hb]; [discriminate|]. specialize (Hp eq_refl).
      destruct (Z.ltb_spec 0 (Ndft - B)); simpl.
      + rewrite app_length, py_from_neg_length by lia. fold B in Hp. lia.
      + lia.
  Qed.

  Lemma assemble_fails first Ndft Ns prev buf :
    0 < Ndft -> Ndft < Z.of_nat (length buf) -> first = false ->
    assemble zero first Ndft Ns prev buf = Err ValueError.
  Proof.
    intros HN HB ->. unfold assemble. destruct (Z.ltb_spec 0 (Ndft - Z.of_nat (length buf))); [lia|].
    simpl. destruct (Z.eqb_spec (Z.of_nat (length buf)) Ndft); [lia | reflexivity].
  Qed.

  (** ** Histories *)
  Lemma foldM_app {S E} (f : S -> E -> res S) l1 l2 st :
    foldM f (l1 ++ l2) st = bind (foldM f l1 st) (foldM f l2).
  Proof.
    revert st; induction l1 as [|e l1 IH]; intros st; [reflexivity|]. simpl.
    destruct (f st e) as [s|]; simpl; auto.
  Qed.

  Lemma received_snoc q k (h : list (op A)) o :
    received q k (h ++ [o]) = match o with
      | Send s c => if Nat.eqb s q then received q k h ++ c else received q k h
      | Read r => if Nat.eqb r k then [] else received q k h end.
  Proof. unfold received. rewrite fold_left_app. reflexivity. Qed.

  Lemma sent_snoc q (h : list (op A)) o :
    sent q (h ++ [o]) = sent q h ++ match o with Send s c => if Nat.eqb s q then c else [] | Read _ => [] end.
  Proof. unfold sent. rewrite flat_map_app. simpl. rewrite app_nil_r. reflexivity. Qed.

  Lemma reads_snoc k (h : list (op A)) o :
    reads k (h ++ [o]) = (reads k h + match o with Read r => if Nat.eqb r k then 1 else 0 | _ => 0 end)%nat.
  Proof.
    unfold reads. rewrite filter_app, app_length. simpl. destruct o as [s c|r]; [reflexivity|].
    destruct (Nat.eqb r k); reflexivity.
  Qed.

  (** flags recorded for position [idx] of node [k] *)
  Definition flags_at (k idx : nat) (log : list (nat * list Z)) : list Z :=
    map (fun r => nth idx (snd r) 0) (filter (fun r => Nat.eqb (fst r) k) log).
  Lemma sumZ_app l1 l2 : sumZ (l1 ++ l2) = sumZ l1 + sumZ l2.
  Proof. induction l1 as [|x l IH]; simpl; lia. Qed.

  Record inv (nb : list (list nat)) (Ndft Ns : Z) (h : list (op A)) (st : bstate A) : Prop := {
    inv_shape : shaped nb (b_buf st);
    inv_buf : forall k idx q, link nb k idx q -> buffer_at (b_buf st) k idx (received q k h);
    inv_i : forall k, (k < length nb)%nat -> nth_error (b_i st) k = Some (reads k h);
    inv_z : Forall2 (fun l zk => Forall (fun c => Z.of_nat (length c) = Ndft) zk) nb (b_z st);
    inv_zl : forall k l zk, nth_error nb k = Some l -> nth_error (b_z st) k = Some zk ->
               reads k h <> 0%nat -> length zk = length l;
    inv_last : length (b_last st) = length nb;
    inv_log : forall k idx q, link nb k idx q -> reads k h <> 0%nat ->
               sumZ (flags_at k idx (b_log st)) =
               Z.of_nat (length (sent q h)) - Z.of_nat (length (received q k h)) - Ndft
               - Ns * (Z.of_nat (reads k h) - 1);
    inv_log0 : forall k, reads k h = 0%nat -> filter (fun r => Nat.eqb (fst r) k) (b_log st) = [];
    inv_loglen : forall k l r, nth_error nb k = Some l -> In r (b_log st) -> fst r = k -> length (snd r) = length l;
    inv_recv0 : forall k q, reads k h = 0%nat -> received q k h = sent q h
  }.

  Lemma inv_start nb Ndft Ns : symmetric_net nb -> inv nb Ndft Ns [] (start_state A nb).
  Proof.
    intros Hnet. constructor.
    - unfold shaped, start_state. cbn [b_buf]. induction nb as [|l nb IH]; simpl; [constructor|].
      clear. constructor; [apply map_length|]. induction nb as [|l' nb IH]; simpl; constructor; [apply map_length | exact IH].
    - intros k idx q [l [Hl Hi]]. exists (map (fun _ => []) l). simpl. split.
      + rewrite nth_error_map, Hl. reflexivity.
      + rewrite nth_error_map, Hi. reflexivity.
    - intros k Hk. simpl. rewrite nth_error_map. destruct (nth_error nb k) eqn:E; [reflexivity|]. apply nth_error_None in E; lia.
    - simpl. clear. induction nb; simpl; constructor; auto.
    - intros k l zk _ _ H. exfalso; apply H; reflexivity.
    - simpl. apply map_length.
    - intros k idx q _ H. exfalso; apply H; reflexivity.
    - reflexivity.
    - intros k l r _ [].
    - reflexivity.
  Qed.

  (** extensional view: reading position idx of the assembled columns *)
  Lemma read_cols nb Ndft Ns h st k lk :
    0 < Ndft -> symmetric_net nb -> inv nb Ndft Ns h st -> nth_error nb k = Some lk ->
    (reads k h = 0%nat \/ forall q, In q lk -> Z.of_nat (length (received q k h)) <= Ndft) ->
    exists st', read_buffers zero nb Ndft Ns k st = Ok st'.
  Proof.
    intros HN Hnet I Hk Hsmall. unfold read_buffers. rewrite (get_some _ _ _ Hk). cbn [bind].
    destruct (Forall2_nth _ _ _ _ _ (inv_shape _ _ _ _ _ I) Hk) as [bk [Hbk Eb]]. rewrite (get_some _ _ _ Hbk). cbn [bind].
    destruct (Forall2_nth _ _ _ _ _ (inv_z _ _ _ _ _ I) Hk) as [zk [Hzk Ez]]. rewrite (get_some _ _ _ Hzk). cbn [bind].
    assert (Hkn : (k < length nb)%nat) by (apply nth_error_Some; congruence).
    rewrite (get_some _ _ _ (inv_i _ _ _ _ _ I k Hkn)). cbn [bind].
    match goal with |- exists st', bind (mapM ?f ?l) _ = _ => destruct (mapM_total f l) as [cols Hc] end.
    { intros idx Hidx. apply in_seq in Hidx.
      destruct (nth_error lk idx) as [q|] eqn:Eq; [|apply nth_error_None in Eq; lia].
      assert (HL : link nb k idx q) by (exists lk; auto).
      destruct (inv_buf _ _ _ _ _ I _ _ _ HL) as [bk' [Hbk' Hb]].
      assert (bk' = bk) by congruence. subst bk'. rewrite (get_some _ _ _ Hb). cbn [bind].
      destruct (Nat.eqb_spec (reads k h) 0) as [E0|E0]; cbn [orb bind].
      - apply assemble_ok; [exact HN | discriminate | left; reflexivity].
      - destruct Hsmall as [?|Hsmall]; [congruence|]. specialize (Hsmall q (nth_error_In _ _ Eq)).
        destruct (Z.ltb_spec 0 (Ndft - Z.of_nat (length (received q k h)))) as [L|L]; cbn [negb bind].
        + assert (Hzl := inv_zl _ _ _ _ _ I _ _ _ Hk Hzk E0).
          destruct (nth_error zk idx) as [c|] eqn:Ec; [|apply nth_error_None in Ec; lia].
          rewrite (get_some _ _ _ Ec). cbn [bind]. apply assemble_ok; [exact HN | | right; lia].
          intros _. left. rewrite Forall_forall in Ez. apply Ez. eapply nth_error_In; exact Ec.
        + apply assemble_ok; [exact HN | | right; lia]. intros _. right. lia. }
    rewrite Hc. cbn [bind]. eauto.
  Qed.

  Lemma read_step nb Ndft Ns h st k st' :
    0 < Ndft -> symmetric_net nb -> inv nb Ndft Ns h st ->
    read_buffers zero nb Ndft Ns k st = Ok st' ->
    inv nb Ndft Ns (h ++ [Read k]) st' /\
    exists lk zk row, nth_error nb k = Some lk /\ nth_error (b_z st') k = Some zk /\ b_log st' = b_log st ++ [(k, row)] /\
      forall idx q, link nb k idx q ->
        let buf := received q k h in
        exists frame flag, nth_error zk idx = Some frame /\ nth_error row idx = Some flag /\
          Z.of_nat (length frame) = Ndft /\
          flag = Z.of_nat (length buf) - (if Nat.eqb (reads k h) 0 then Ndft else Ns) /\
          (Z.of_nat (length buf) <= Ndft -> exists old, frame = old ++ buf /\
             (reads k h = 0%nat -> old = repeat zero (Z.to_nat Ndft - length buf)) /\
             (reads k h <> 0%nat -> old <> [] -> exists zk0 prev, nth_error (b_z st) k = Some zk0 /\ nth_error zk0 idx = Some prev /\
                old = skipn (length buf) prev)) /\
          (Ndft < Z.of_nat (length buf) -> reads k h = 0%nat /\ frame = skipn (length buf - Z.to_nat Ndft) buf).
  Proof.
    intros HN Hnet I H. unfold read_buffers in H.
    destruct (bind_ok _ _ _ H) as [lk [Hk H1]]. destruct (bind_ok _ _ _ H1) as [bk [Hbk H2]].
    destruct (bind_ok _ _ _ H2) as [zk [Hzk H3]]. destruct (bind_ok _ _ _ H3) as [ik [Hik H4]].
    destruct (bind_ok _ _ _ H4) as [cols [Hc H5]]. clear H H1 H2 H3 H4.
    apply get_ok in Hk, Hbk, Hzk, Hik.
    assert (Hkn : (k < length nb)%nat) by (apply nth_error_Some; congruence).
    assert (Eik : ik = reads k h) by (rewrite (inv_i _ _ _ _ _ I k Hkn) in Hik; congruence). subst ik.
    assert (Hcl : length cols = length lk) by (rewrite (mapM_length _ _ _ Hc), seq_length; reflexivity).
    assert (HX : forall idx q, link nb k idx q -> exists frame flag prev, nth_error cols idx = Some (frame, flag) /\
       assemble zero (Nat.eqb (reads k h) 0) Ndft Ns prev (received q k h) = Ok (frame, flag) /\
       (reads k h <> 0%nat -> Z.of_nat (length (received q k h)) < Ndft -> nth_error zk idx = Some prev)).
    { intros idx q HL. destruct HL as [l [Hl Hi]]. assert (l = lk) by congruence. subst l.
      assert (HL : link nb k idx q) by (exists lk; auto).
      assert (Hidx : (idx < length lk)%nat) by (apply nth_error_Some; congruence).
      assert (Hs : nth_error (seq 0 (length lk)) idx = Some idx).
      { rewrite (nth_error_nth' _ 0%nat) by (rewrite seq_length; exact Hidx). rewrite seq_nth by exact Hidx. reflexivity. }
      destruct (mapM_nth _ _ _ _ _ Hc Hs) as [[frame flag] [Hn Hf]].
      destruct (bind_ok _ _ _ Hf) as [b [Hb Hf1]]. apply get_ok in Hb.
      destruct (inv_buf _ _ _ _ _ I _ _ _ HL) as [bk' [Hbk' Hb']]. assert (bk' = bk) by congruence. subst bk'.
      assert (b = received q k h) by congruence. subst b.
      destruct (bind_ok _ _ _ Hf1) as [pz [Hpz Hf2]]. exists frame, flag, pz. split; [exact Hn|]. split; [exact Hf2|].
      intros E0 Hlt. destruct (Nat.eqb_spec (reads k h) 0) as [E|E]; [congruence|]. cbn [orb] in Hpz.
      destruct (Z.ltb_spec 0 (Ndft - Z.of_nat (length (received q k h)))); [|lia]. cbn [negb] in Hpz. apply get_ok in Hpz. exact Hpz. }
    injection H5 as <-. split.
    - constructor; cbn [b_buf b_z b_i b_last b_log].
      + eapply Forall2_upd; [apply (inv_shape _ _ _ _ _ I) | exact Hk | apply map_length].
      + intros k' idx q HL. rewrite received_snoc.
        destruct (Nat.eqb_spec k k') as [<-|Hne].
        * destruct HL as [l [Hl Hi]]. assert (l = lk) by congruence. subst l.
          exists (map (fun _ => []) lk). split; [rewrite upd_nth, Nat.eqb_refl, Hbk; reflexivity|].
          rewrite nth_error_map, Hi. reflexivity.
        * destruct (inv_buf _ _ _ _ _ I _ _ _ HL) as [bk' [Hb1 Hb2]]. exists bk'. split; [|exact Hb2].
          rewrite upd_nth. destruct (Nat.eqb_spec k k'); [congruence | exact Hb1].
      + intros k' Hk'. rewrite upd_nth, reads_snoc. rewrite (inv_i _ _ _ _ _ I k' Hk').
        destruct (Nat.eqb_spec k k') as [<-|Hne]; f_equal; lia.
      + eapply Forall2_upd; [apply (inv_z _ _ _ _ _ I) | exact Hk |].
        apply Forall_forall. intros c Hin. apply in_map_iff in Hin. destruct Hin as [[f g] [<- Hin]].
        apply In_nth_error in Hin. destruct Hin as [idx Hin].
        assert (Hidx : (idx < length lk)%nat) by (rewrite <- Hcl; apply nth_error_Some; congruence).
        destruct (nth_error lk idx) as [q|] eqn:Eq; [|apply nth_error_None in Eq; lia].
        destruct (HX idx q ltac:(exists lk; auto)) as [frame [flag [prev [E1 [E2 _]]]]].
        rewrite Hin in E1. injection E1 as -> ->. apply assemble_spec in E2; [|exact HN]. simpl. tauto.
      + intros k' l' zk' Hl' Hz' Hr. rewrite upd_nth in Hz'. destruct (Nat.eqb_spec k k') as [<-|Hne].
        * rewrite Hzk in Hz'. injection Hz' as <-. assert (l' = lk) by congruence. subst l'. rewrite map_length. exact Hcl.
        * eapply (inv_zl _ _ _ _ _ I); [exact Hl' | exact Hz' |].
          rewrite reads_snoc in Hr. destruct (Nat.eqb_spec k k'); [congruence|]. lia.
      + apply (inv_last _ _ _ _ _ I).
      + intros k' idx q HL Hr. unfold flags_at. rewrite filter_app, map_app, sumZ_app. fold (flags_at k' idx (b_log st)).
        rewrite reads_snoc, sent_snoc, received_snoc, app_nil_r. cbn [filter fst].
        rewrite reads_snoc in Hr.
        destruct (Nat.eqb_spec k k') as [<-|Hne].
        * destruct (HX idx q HL) as [frame [flag [prev [E1 [E2 _]]]]].
          cbn [map sumZ fold_right snd]. rewrite (nth_indep _ 0 (snd (frame, flag))) by (rewrite map_length; rewrite Hcl; destruct HL as [l [Hl Hi]]; assert (l = lk) by congruence; subst l; apply nth_error_Some; congruence).
          rewrite map_nth. rewrite (nth_error_nth _ _ _ E1). cbn [snd length].
          apply assemble_spec in E2; [|exact HN]. destruct E2 as [_ [-> _]].
          destruct (Nat.eqb_spec (reads k h) 0) as [E0|E0].
          -- rewrite (inv_recv0 _ _ _ _ _ I k q E0). unfold flags_at. rewrite (inv_log0 _ _ _ _ _ I k E0), E0. simpl. lia.
          -- rewrite (inv_log _ _ _ _ _ I k idx q HL E0). lia.
        * cbn [map sumZ fold_right]. rewrite (inv_log _ _ _ _ _ I k' idx q HL) by lia. rewrite Nat.add_0_r. lia.
      + intros k' Hr. rewrite reads_snoc in Hr. rewrite filter_app. cbn [filter fst].
        destruct (Nat.eqb_spec k k') as [Heq|Hne]; [lia|]. rewrite app_nil_r. apply (inv_log0 _ _ _ _ _ I). lia.
      + intros k' l' r Hl' Hr Er. apply in_app_or in Hr. destruct Hr as [Hr|[<-|[]]].
        * eapply (inv_loglen _ _ _ _ _ I); eauto.
        * simpl in *. assert (l' = lk) by congruence. subst l'. rewrite map_length. exact Hcl.
      + intros k' q Hr. rewrite reads_snoc in Hr. rewrite received_snoc, sent_snoc, app_nil_r.
        destruct (Nat.eqb_spec k k'); [lia|]. apply (inv_recv0 _ _ _ _ _ I). lia.
    - exists lk, (map fst cols), (map snd cols). split; [exact Hk|]. split.
      { cbn [b_z]. rewrite upd_nth, Nat.eqb_refl, Hzk. reflexivity. }
      split; [reflexivity|]. intros idx q HL buf. destruct (HX idx q HL) as [frame [flag [prev [E1 [E2 E3]]]]].
      fold buf in E2, E3. apply assemble_spec in E2; [|exact HN]. destruct E2 as [F1 [F2 [F3 F4]]].
      exists frame, flag. split; [rewrite nth_error_map, E1; reflexivity|]. split; [rewrite nth_error_map, E1; reflexivity|].
      split; [exact F1|]. split; [exact F2|]. split.
      + intros Hle. eexists. split; [apply F3; exact Hle|]. split.
        * intros E0. rewrite E0. reflexivity.
        * intros E0 Hold. assert (Eb : Nat.eqb (reads k h) 0 = false) by (apply Nat.eqb_neq; exact E0). rewrite Eb in *.
          assert (Hlt : Z.of_nat (length buf) < Ndft).
          { destruct (Z.eq_dec (Z.of_nat (length buf)) Ndft) as [E|]; [|lia]. exfalso. apply Hold.
            replace (Z.to_nat Ndft - length buf)%nat with 0%nat by lia. rewrite Nat.sub_0_r. apply skipn_all. }
          specialize (E3 E0 Hlt). exists zk, prev. split; [exact Hzk|]. split; [exact E3|].
          destruct (Forall2_nth_r _ _ _ _ _ (inv_z _ _ _ _ _ I) Hzk) as [l0 [_ Hz]].
          rewrite Forall_forall in Hz. specialize (Hz _ (nth_error_In _ _ E3)). f_equal. lia.
      + intros Hgt. destruct (F4 Hgt) as [E0 EF]. split; [apply Nat.eqb_eq; exact E0 | exact EF].
  Qed.

  Lemma send_step nb Ndft Ns h st k c st' :
    symmetric_net nb -> inv nb Ndft Ns h st ->
    exec_op zero nb Ndft Ns st (Send k c) = Ok st' -> inv nb Ndft Ns (h ++ [Send k c]) st'.
  Proof.
    intros Hnet I H. simpl in H. destruct (bind_ok _ _ _ H) as [bufs [Hf E]]. injection E as <-.
    assert (Hk : (k < length nb)%nat).
    { unfold fill_buffers in Hf. destruct (bind_ok _ _ _ Hf) as [lk [Hk _]]. apply get_ok in Hk. apply nth_error_Some; congruence. }
    destruct (fill_buffers_spec nb k c (b_buf st) Hnet (inv_shape _ _ _ _ _ I) Hk) as [bufs' [E1 [E2 E3]]].
    assert (bufs' = bufs) by congruence. subst bufs'.
    constructor; cbn [b_buf b_z b_i b_last b_log].
    - exact E2.
    - intros k' idx q HL. rewrite received_snoc.
      pose proof (E3 _ _ _ _ HL (inv_buf _ _ _ _ _ I _ _ _ HL)) as HB. rewrite Nat.eqb_sym.
      destruct (Nat.eqb q k); exact HB.
    - intros k' Hk'. rewrite reads_snoc, Nat.add_0_r. apply (inv_i _ _ _ _ _ I k' Hk').
    - apply (inv_z _ _ _ _ _ I).
    - intros k' l zk Hl Hz Hr. rewrite reads_snoc, Nat.add_0_r in Hr. eapply (inv_zl _ _ _ _ _ I); eauto.
    - apply (inv_last _ _ _ _ _ I).
    - intros k' idx q HL Hr. rewrite reads_snoc, Nat.add_0_r in *. rewrite (inv_log _ _ _ _ _ I k' idx q HL Hr).
      rewrite sent_snoc, received_snoc. destruct (Nat.eqb k q); rewrite ?app_nil_r; [rewrite !app_length|]; lia.
    - intros k' Hr. rewrite reads_snoc, Nat.add_0_r in Hr. apply (inv_log0 _ _ _ _ _ I k' Hr).
    - apply (inv_loglen _ _ _ _ _ I).
    - intros k' q Hr. rewrite reads_snoc, Nat.add_0_r in Hr. rewrite received_snoc, sent_snoc, (inv_recv0 _ _ _ _ _ I k' q Hr).
      destruct (Nat.eqb k q); [reflexivity | rewrite app_nil_r; reflexivity].
  Qed.

  Lemma exec_inv nb Ndft Ns h st :
    0 < Ndft -> symmetric_net nb -> exec zero nb Ndft Ns h (start_state A nb) = Ok st -> inv nb Ndft Ns h st.
  Proof.
    intros HN Hnet. revert st. induction h as [|o h IH] using rev_ind; intros st H.
    - injection H as <-. apply inv_start; exact Hnet.
    - unfold exec in H. rewrite foldM_app in H. destruct (bind_ok _ _ _ H) as [st1 [H1 H2]]. simpl in H2.
      destruct (bind_ok _ _ _ H2) as [st2 [H3 E]]. injection E as ->.
      specialize (IH _ H1). destruct o as [k c|k].
      + eapply send_step; eassumption.
      + simpl in H3. eapply read_step; eassumption.
  Qed.

  Lemma exec_total nb Ndft Ns h :
    0 < Ndft -> symmetric_net nb ->
    (forall o, In o h -> match o with Send k _ => (k < length nb)%nat | Read k => (k < length nb)%nat end) ->
    (forall pre k post q, h = pre ++ Read k :: post -> reads k pre <> 0%nat -> (exists idx, link nb k idx q) ->
       Z.of_nat (length (received q k pre)) <= Ndft) ->
    exists st, exec zero nb Ndft Ns h (start_state A nb) = Ok st.
  Proof.
    intros HN Hnet. induction h as [|o h IH] using rev_ind; intros Hr Hs; [eexists; reflexivity|].
    destruct IH as [st H].
    - intros o' Ho'. apply Hr, in_or_app; left; exact Ho'.
    - intros pre k post q E. apply (Hs pre k (post ++ [o]) q). rewrite E, <- app_assoc. reflexivity.
    - assert (I := exec_inv _ _ _ _ _ HN Hnet H). unfold exec in *. rewrite foldM_app, H. cbn [bind foldM].
      assert (Hin : In o (h ++ [o])) by (apply in_or_app; right; left; reflexivity). specialize (Hr o Hin). clear Hin.
      destruct o as [k c|k]; cbn [exec_op].
      + destruct (fill_buffers_spec nb k c (b_buf st) Hnet (inv_shape _ _ _ _ _ I) Hr) as [b' [E _]]. rewrite E. cbn [bind]. eauto.
      + destruct (nth_error nb k) as [lk|] eqn:Ek; [|apply nth_error_None in Ek; lia].
        destruct (read_cols nb Ndft Ns h st k lk HN Hnet I Ek) as [st' E].
        * destruct (Nat.eq_dec (reads k h) 0) as [E0|E0]; [left; exact E0|]. right. intros q Hq.
          apply (Hs h k [] q eq_refl E0). apply In_nth_error in Hq. destruct Hq as [idx Hi]. exists idx, lk. auto.
        * rewrite E. cbn [bind]. eauto.
  Qed.
End F.
