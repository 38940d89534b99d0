(** Synchronous runs: number of samples found in the buffers at each update. *)
From Verif Require Import Base BaseFacts Sched SchedSpec SchedFacts SchedFacts4 SchedFacts5 InstSpec InstFacts Buffers BufSpec BufFacts.
Open Scope Z_scope.

Notation tev := (Z * (nat * evtype))%type.

Definition before (a b : tev) : Prop := fst a < fst b \/ (fst a = fst b /\ fc_before (snd a) (snd b)).

Lemma StronglySorted_app_intro {A} (R : A -> A -> Prop) l1 l2 :
  StronglySorted R l1 -> StronglySorted R l2 -> (forall a b, In a l1 -> In b l2 -> R a b) -> StronglySorted R (l1 ++ l2).
Proof.
  induction 1 as [|x l1 H1 IH HF]; intros H2 H; [exact H2|]. simpl. constructor.
  - apply IH; [exact H2|]. intros a b Ha Hb. apply H; [right; exact Ha | exact Hb].
  - apply Forall_app. split; [exact HF|]. apply Forall_forall. intros b Hb. apply H; [left; reflexivity | exact Hb].
Qed.

Lemma StronglySorted_app_inv {A} (R : A -> A -> Prop) l1 l2 :
  StronglySorted R (l1 ++ l2) -> StronglySorted R l1 /\ StronglySorted R l2 /\ (forall a b, In a l1 -> In b l2 -> R a b).
Proof.
  induction l1 as [|x l1 IH]; intros H; [split; [constructor | split; [exact H | intros a b []]]|].
  inversion H as [|? ? Hs HF]; subst. destruct (IH Hs) as [I1 [I2 I3]]. rewrite Forall_forall in HF.
  split; [constructor; [exact I1 | apply Forall_forall; intros; apply HF, in_or_app; left; assumption]|].
  split; [exact I2|]. intros a b [<-|Ha] Hb; [apply HF, in_or_app; right; exact Hb | apply I3; assumption].
Qed.

Lemma map_sorted {A B} (f : A -> B) (R : B -> B -> Prop) (R' : A -> A -> Prop) l :
  (forall a b, R' a b -> R (f a) (f b)) -> StronglySorted R' l -> StronglySorted R (map f l).
Proof.
  intros Hf. induction 1 as [|x l H IH HF]; simpl; constructor; [exact IH|].
  apply Forall_forall. intros y Hy. apply in_map_iff in Hy. destruct Hy as [z [<- Hz]]. rewrite Forall_forall in HF. auto.
Qed.

Lemma NoDup_app_intro {A} (l1 l2 : list A) :
  NoDup l1 -> NoDup l2 -> (forall x, In x l1 -> ~ In x l2) -> NoDup (l1 ++ l2).
Proof.
  induction 1 as [|x l1 Hx H1 IH]; intros H2 H; [exact H2|]. simpl. constructor.
  - intros Hin. apply in_app_or in Hin. destruct Hin as [Hin|Hin]; [exact (Hx Hin) | apply (H x (or_introl eq_refl) Hin)].
  - apply IH; [exact H2|]. intros y Hy. apply H. right; exact Hy.
Qed.

Lemma NoDup_map_inj {A B} (f : A -> B) l : (forall a b, f a = f b -> a = b) -> NoDup l -> NoDup (map f l).
Proof.
  intros Hf. induction 1 as [|x l Hx H IH]; simpl; constructor; [|exact IH].
  intros Hin. apply in_map_iff in Hin. destruct Hin as [y [E Hy]]. apply Hf in E. subst y. exact (Hx Hy).
Qed.

Lemma events_of_In s t e : In (t, e) (events_of s) <-> exists i, In i s /\ in_t i = t /\ In e (in_evs i).
Proof.
  unfold events_of. rewrite in_flat_map. split.
  - intros [i [Hi Hin]]. apply in_map_iff in Hin. destruct Hin as [e' [E He]]. injection E as <- <-. eauto.
  - intros [i [Hi [<- He]]]. exists i. split; [exact Hi|]. apply in_map. exact He.
Qed.

Lemma events_of_sorted s :
  StronglySorted Z.lt (map in_t s) ->
  (forall i, In i s -> NoDup (in_evs i) /\ StronglySorted fc_before (in_evs i)) ->
  StronglySorted before (events_of s) /\ NoDup (events_of s).
Proof.
  induction s as [|i s IH]; intros Hs Hi; [split; constructor|].
  inversion Hs as [|? ? Hs' HF]; subst. rewrite Forall_forall in HF.
  destruct (IH Hs' (fun j Hj => Hi j (or_intror Hj))) as [I1 I2]. destruct (Hi i (or_introl eq_refl)) as [D S].
  assert (HC : forall a b, In a (map (fun e => (in_t i, e)) (in_evs i)) -> In b (events_of s) -> fst a < fst b).
  { intros a [t e] Ha Hb. apply in_map_iff in Ha. destruct Ha as [e' [<- _]].
    apply events_of_In in Hb. destruct Hb as [j [Hj [<- _]]]. simpl. apply HF, in_map, Hj. }
  unfold events_of. simpl. fold (events_of s). split.
  - apply StronglySorted_app_intro; [|exact I1|intros a b Ha Hb; left; auto].
    eapply map_sorted; [|exact S]. intros a b H. right. simpl. auto.
  - apply NoDup_app_intro; [|exact I2|].
    + apply NoDup_map_inj; [intros a b E; congruence | exact D].
    + intros x Hx Hx2. specialize (HC x x Hx Hx2). lia.
Qed.

Lemma before_irrefl_up t k e pre post q t' :
  StronglySorted before (pre ++ (t, (k, Up)) :: post) -> NoDup (pre ++ (t, (k, Up)) :: post) ->
  e = (t', (q, Bc)) -> (In e pre <-> In e (pre ++ (t, (k, Up)) :: post) /\ t' <= t).
Proof.
  intros HS HN ->. destruct (StronglySorted_app_inv _ _ _ HS) as [S1 [S2 S3]].
  inversion S2 as [|? ? S4 HF]; subst. rewrite Forall_forall in HF. split.
  - intros Hin. split; [apply in_or_app; left; exact Hin|].
    specialize (S3 _ _ Hin (or_introl eq_refl)). destruct S3 as [H|[H _]]; simpl in H; lia.
  - intros [Hin Hle]. apply in_app_or in Hin. destruct Hin as [Hin|[Hin|Hin]]; [exact Hin | discriminate|].
    specialize (HF _ Hin). destruct HF as [H|[H [H2|[H2 _]]]]; simpl in H; [lia | simpl in H2; lia | discriminate].
Qed.

Lemma before_up_up t k pre post t' :
  StronglySorted before (pre ++ (t, (k, Up)) :: post) -> NoDup (pre ++ (t, (k, Up)) :: post) ->
  (In (t', (k, Up)) pre <-> In (t', (k, Up)) (pre ++ (t, (k, Up)) :: post) /\ t' < t).
Proof.
  intros HS HN. destruct (StronglySorted_app_inv _ _ _ HS) as [S1 [S2 S3]].
  inversion S2 as [|? ? S4 HF]; subst. rewrite Forall_forall in HF. split.
  - intros Hin. split; [apply in_or_app; left; exact Hin|].
    destruct (S3 _ _ Hin (or_introl eq_refl)) as [H|[H _]]; simpl in H; [lia|]. subst t'.
    exfalso. apply NoDup_remove_2 in HN. apply HN, in_or_app. left; exact Hin.
  - intros [Hin Hlt]. apply in_app_or in Hin. destruct Hin as [Hin|[Hin|Hin]]; [exact Hin | injection Hin as <-; lia|].
    specialize (HF _ Hin). destruct HF as [H|[H _]]; simpl in H; lia.
Qed.

Lemma NoDup_app_l {A} (l1 l2 : list A) : NoDup (l1 ++ l2) -> NoDup l1.
Proof. induction l1 as [|x l IH]; intros H; [constructor|]. inversion H; subst. constructor; [|auto]. intros Hin. apply H2, in_or_app. left; exact Hin. Qed.

(** counting a set given by an arithmetic progression *)
Lemma count_by_set {A} (l : list A) (P : A -> bool) (f : nat -> A) (m : nat) :
  NoDup l -> (forall i j, f i = f j -> i = j) ->
  (forall x, In x l /\ P x = true <-> exists i, (i < m)%nat /\ x = f i) ->
  length (filter P l) = m.
Proof.
  intros HN Hf H. assert (HP : Permutation (filter P l) (map f (seq 0 m))).
  { apply NoDup_Permutation; [apply NoDup_filter; exact HN | apply NoDup_map_inj; [exact Hf | apply seq_NoDup]|].
    intros x. rewrite filter_In, H, in_map_iff. split; intros [i [H1 H2]]; exists i; rewrite in_seq in *; (split; [auto; lia|auto; lia]). }
  rewrite (Permutation_length HP), map_length, seq_length. reflexivity.
Qed.

Definition is_ev (q : nat) (ty : evtype) (x : tev) : bool := Nat.eqb (fst (snd x)) q && evtype_eqb (snd (snd x)) ty.
Lemma is_ev_true q ty x : is_ev q ty x = true <-> snd x = (q, ty).
Proof.
  destruct x as [t [k e]]. unfold is_ev. simpl. rewrite andb_true_iff, Nat.eqb_eq. unfold evtype_eqb. rewrite Z.eqb_eq. split.
  - intros [-> E]. f_equal. destruct e, ty; simpl in E; congruence || lia.
  - intros E. injection E as -> ->. auto.
Qed.

Lemma app_eq_len {A} (a b c d : list A) : a ++ b = c ++ d -> length a = length c -> a = c /\ b = d.
Proof.
  revert c; induction a as [|x a IH]; intros [|y c] H L; try discriminate; [auto|].
  simpl in *. injection H as -> H. destruct (IH c H ltac:(lia)) as [-> ->]. auto.
Qed.

Section R.
  Variable A : Type.
  Lemma last_read k (h : list (op A)) : reads k h <> 0%nat ->
    exists h1 h2, h = h1 ++ Read k :: h2 /\ reads k h2 = 0%nat.
  Proof.
    induction h as [|o h IH] using rev_ind; intros Hr; [exfalso; apply Hr; reflexivity|].
    rewrite reads_snoc in Hr.
    destruct o as [s c|r].
    - destruct IH as [h1 [h2 [-> E]]]; [lia|]. exists h1, (h2 ++ [Send s c]). rewrite <- app_assoc. split; [reflexivity|].
      rewrite reads_snoc. lia.
    - destruct (Nat.eqb_spec r k) as [->|Hne].
      + exists h, []. split; reflexivity.
      + destruct IH as [h1 [h2 [-> E]]]; [lia|]. exists h1, (h2 ++ [Read r]). rewrite <- app_assoc. split; [reflexivity|].
        rewrite reads_snoc. destruct (Nat.eqb_spec r k); [congruence | lia].
  Qed.

  Lemma received_since q k (h1 h2 : list (op A)) : reads k h2 = 0%nat -> received q k (h1 ++ Read k :: h2) = sent q h2.
  Proof.
    induction h2 as [|o h IH] using rev_ind; intros Hr.
    - rewrite received_snoc, Nat.eqb_refl. reflexivity.
    - rewrite reads_snoc in Hr. replace (h1 ++ Read k :: h ++ [o]) with ((h1 ++ Read k :: h) ++ [o]) by (rewrite <- app_assoc; reflexivity).
      rewrite received_snoc, sent_snoc. rewrite IH by lia. destruct o as [s c|r].
      + destruct (Nat.eqb s q); [reflexivity | rewrite app_nil_r; reflexivity].
      + rewrite app_nil_r. destruct (Nat.eqb_spec r k); [lia | reflexivity].
  Qed.

  Lemma received_none q k (h : list (op A)) : reads k h = 0%nat -> received q k h = sent q h.
  Proof.
    induction h as [|o h IH] using rev_ind; intros Hr; [reflexivity|]. rewrite reads_snoc in Hr.
    rewrite received_snoc, sent_snoc, IH by lia. destruct o as [s c|r].
    - destruct (Nat.eqb s q); [reflexivity | rewrite app_nil_r; reflexivity].
    - rewrite app_nil_r. destruct (Nat.eqb_spec r k); [lia | reflexivity].
  Qed.

  Lemma sent_app q (h1 h2 : list (op A)) : sent q (h1 ++ h2) = sent q h1 ++ sent q h2.
  Proof. unfold sent. apply flat_map_app. Qed.

End R.

Section S.
  Variable A : Type.
  Variable zero : A.
  Variable p : sparams.
  Variable nodes : list snode.
  Variable compress : nat -> Z -> Z -> list A.
  Hypothesis Hcomp : forall k t n, 0 <= n -> Z.of_nat (length (compress k t n)) = n.
  Hypothesis Hnet : symmetric_net (map nbrs nodes).
  Hypothesis Hp : good_params p.
  Hypothesis Hwhole : p_whole p = true -> p_L p = p_Ns p.
  Hypothesis HNsN : p_Ns p <= p_N p.

  Let nb := map nbrs nodes.
  Let n := length nodes.

  (** the samples broadcast, given the instants of the last broadcasts *)
  Definition size_of (lasts : list Z) (t : Z) (k : nat) : Z :=
    if p_whole p then p_Ns p
    else if p_efficient p then efficient_size (p_L p) (match nth_error nodes k with Some nd => stamps nd | None => [] end) (nth k lasts 0) t
    else p_L p.
  Definition chunk_of (lasts : list Z) (t : Z) (k : nat) : list A :=
    if p_whole p then chunk_to_send (compress k t (p_N p)) (p_Ns p)
    else chunk_to_send (compress k t (size_of lasts t k)) (- size_of lasts t k).
  Definition lasts_after (lasts : list Z) (x : tev) : list Z :=
    match x with
    | (t, (k, Bc)) => if p_whole p then lasts else if p_efficient p then upd k t lasts else lasts
    | _ => lasts
    end.
  Fixpoint hist (lasts : list Z) (evs : list tev) : list (op A) :=
    match evs with
    | [] => []
    | x :: evs' =>
      (match x with (t, (k, Bc)) => Send k (chunk_of lasts t k) | (t, (k, _)) => Read k end) :: hist (lasts_after lasts x) evs'
    end.
  Fixpoint lasts_of (lasts : list Z) (evs : list tev) : list Z :=
    match evs with [] => lasts | x :: evs' => lasts_of (lasts_after lasts x) evs' end.

  Lemma hist_app lasts a b : hist lasts (a ++ b) = hist lasts a ++ hist (lasts_of lasts a) b.
  Proof. revert lasts; induction a as [|x a IH]; intros lasts; [reflexivity|]. simpl. rewrite IH. reflexivity. Qed.
  Lemma lasts_of_app lasts a b : lasts_of lasts (a ++ b) = lasts_of (lasts_of lasts a) b.
  Proof. revert lasts; induction a as [|x a IH]; intros lasts; [reflexivity|]. simpl. apply IH. Qed.
  Lemma hist_length lasts a : length (hist lasts a) = length a.
  Proof. revert lasts; induction a as [|x a IH]; intros lasts; [reflexivity|]. simpl. rewrite IH. reflexivity. Qed.
  Lemma lasts_after_length lasts x : length (lasts_after lasts x) = length lasts.
  Proof. destruct x as [t [k ty]]. destruct ty; simpl; try reflexivity. destruct (p_whole p); [reflexivity|]. destruct (p_efficient p); [apply upd_length | reflexivity]. Qed.
  Lemma lasts_of_length lasts a : length (lasts_of lasts a) = length lasts.
  Proof. revert lasts; induction a as [|x a IH]; intros lasts; [reflexivity|]. simpl. rewrite IH. apply lasts_after_length. Qed.

  Definition set_last (st : bstate A) (l : list Z) : bstate A := mkB (b_buf st) (b_z st) (b_i st) l (b_log st).

  Lemma size_nonneg lasts t k : 0 <= size_of lasts t k.
  Proof.
    destruct Hp as [HN [HNs HL]]. unfold size_of. destruct (p_whole p); [lia|]. destruct (p_efficient p); [|lia].
    unfold efficient_size. apply Z.mul_nonneg_nonneg; [lia|]. apply Z.div_pos; lia.
  Qed.

  Lemma chunk_length lasts t k : Z.of_nat (length (chunk_of lasts t k)) = size_of lasts t k.
  Proof.
    destruct Hp as [HN [HNs HL]]. pose proof (size_nonneg lasts t k) as Hs0. unfold chunk_of, chunk_to_send.
    destruct (p_whole p) eqn:Ew.
    - unfold size_of. rewrite Ew. destruct (Z.ltb_spec (p_Ns p) 0); [lia|]. destruct (Z.ltb_spec 0 (p_Ns p)); [|lia].
      unfold py_upto, py_bound. rewrite firstn_length. pose proof (Hcomp k t (p_N p)).
      destruct (Z.ltb_spec (p_Ns p) 0); lia.
    - set (s := size_of lasts t k) in *. pose proof (Hcomp k t s Hs0).
      destruct (Z.ltb_spec (- s) 0).
      + rewrite py_from_neg_length by lia. lia.
      + destruct (Z.ltb_spec 0 (- s)); simpl; lia.
  Qed.

  Definition valid_ev (x : tev) : Prop := (fst (snd x) < n)%nat /\ (snd (snd x) = Up \/ snd (snd x) = Bc).

  Lemma event_as_op st lasts x : valid_ev x -> length lasts = n ->
    do_event zero p nodes compress (fst x) (set_last st lasts) (snd x)
    = bind (exec_op zero nb (p_N p) (p_Ns p) st
              (match x with (t, (k, Bc)) => Send k (chunk_of lasts t k) | (t, (k, _)) => Read k end))
           (fun st' => Ok (set_last st' (lasts_after lasts x))).
  Proof.
    intros [Hk Hty] Hl. destruct x as [t [k ty]]. simpl in Hk, Hty. unfold do_event. cbn [fst snd].
    destruct Hty as [->| ->].
    - cbn [exec_op lasts_after]. unfold read_buffers, set_last. cbn [b_buf b_z b_i b_last b_log]. fold nb.
      destruct (get nb k); cbn [bind]; [|reflexivity]. destruct (get (b_buf st) k); cbn [bind]; [|reflexivity].
      destruct (get (b_z st) k); cbn [bind]; [|reflexivity]. destruct (get (b_i st) k); cbn [bind]; [|reflexivity].
      match goal with |- context [mapM ?f ?l] => destruct (mapM f l); cbn [bind]; reflexivity end.
    - unfold broadcast. destruct (get_lt nodes k Hk) as [nd Hnd]. rewrite Hnd. cbn [bind]. fold nb.
      destruct (get_lt lasts k ltac:(lia)) as [la Hla].
      assert (Ela : nth k lasts 0 = la) by (apply get_ok in Hla; apply nth_error_nth; exact Hla).
      cbn [exec_op lasts_after b_buf set_last b_last b_z b_i b_log].
      unfold chunk_of, size_of. rewrite Ela. apply get_ok in Hnd. rewrite Hnd. rewrite Hla.
      destruct (p_whole p); cbn [bind].
      + match goal with |- context [fill_buffers ?a ?b ?c ?d] => destruct (fill_buffers a b c d); reflexivity end.
      + destruct (p_efficient p); cbn [bind];
        match goal with |- context [fill_buffers ?a ?b ?c ?d] => destruct (fill_buffers a b c d); reflexivity end.
  Qed.

  Lemma run_as_exec evs : forall st lasts, (forall x, In x evs -> valid_ev x) -> length lasts = n ->
    run_events zero p nodes compress evs (set_last st lasts)
    = bind (exec zero nb (p_N p) (p_Ns p) (hist lasts evs) st) (fun st' => Ok (set_last st' (lasts_of lasts evs))).
  Proof.
    induction evs as [|x evs IH]; intros st lasts Hv Hl; [reflexivity|].
    unfold run_events. cbn [foldM]. rewrite event_as_op by (auto; apply Hv; left; reflexivity).
    unfold exec. cbn [hist foldM lasts_of]. fold (exec zero nb (p_N p) (p_Ns p)).
    destruct (exec_op zero nb (p_N p) (p_Ns p) st _) as [st'|]; cbn [bind]; [|reflexivity].
    apply IH; [intros y Hy; apply Hv; right; exact Hy | rewrite lasts_after_length; exact Hl].
  Qed.

  Lemma init_is_start : init_state A nodes = set_last (start_state A nb) (map (fun _ => 0) nodes).
  Proof. unfold init_state, start_state, set_last, nb. cbn [b_buf b_z b_i b_log]. rewrite !map_map. reflexivity. Qed.


  (** *** counting *)
  Lemma reads_hist lasts k evs : (forall x, In x evs -> valid_ev x) -> reads k (hist lasts evs) = length (filter (is_ev k Up) evs).
  Proof.
    revert lasts. induction evs as [|x evs IH]; intros lasts Hv; [reflexivity|].
    destruct x as [t [q ty]]. destruct (Hv _ (or_introl eq_refl)) as [_ Ht]. simpl in Ht.
    assert (IH' := IH (lasts_after lasts (t, (q, ty))) (fun y Hy => Hv y (or_intror Hy))).
    unfold reads in *. cbn [hist filter]. unfold is_ev at 1. cbn [fst snd].
    destruct Ht as [->| ->]; unfold evtype_eqb; simpl Z.eqb; rewrite ?andb_true_r, ?andb_false_r.
    - destruct (Nat.eqb q k); [exact (f_equal S IH') | exact IH'].
    - exact IH'.
  Qed.

  Lemma sent_hist_fixed lasts q evs : (p_whole p = true \/ p_efficient p = false) -> (forall x, In x evs -> valid_ev x) ->
    Z.of_nat (length (sent q (hist lasts evs))) = p_L p * Z.of_nat (length (filter (is_ev q Bc) evs)).
  Proof.
    intros Hm. revert lasts. induction evs as [|x evs IH]; intros lasts Hv; [simpl; lia|].
    destruct x as [t [k ty]]. destruct (Hv _ (or_introl eq_refl)) as [_ Ht]. simpl in Ht.
    assert (IH' := IH (lasts_after lasts (t, (k, ty))) (fun y Hy => Hv y (or_intror Hy))).
    unfold sent in *. cbn [hist flat_map filter]. unfold is_ev at 1. cbn [fst snd].
    destruct Ht as [->| ->]; unfold evtype_eqb; simpl Z.eqb; rewrite ?andb_true_r, ?andb_false_r.
    - exact IH'.
    - rewrite app_length, Nat2Z.inj_add, IH'.
      assert (EC := chunk_length lasts t k). unfold size_of in EC.
      destruct (Nat.eqb k q); simpl length; [|lia].
      replace (Z.of_nat (length (chunk_of lasts t k))) with (p_L p); [lia|].
      rewrite EC. destruct (p_whole p); [auto|]. destruct Hm as [?|Hm]; [discriminate|]. rewrite Hm. reflexivity.
  Qed.

  (** generic: if at the j-th update of k exactly [a + j Ns] samples of q have been sent, ... *)
  Lemma sizes_at_updates evs (a : Z) k q :
    let l0 := map (fun _ => 0) nodes in
    (forall x, In x evs -> valid_ev x) ->
    (forall pre t post, evs = pre ++ (t, (k, Up)) :: post ->
       Z.of_nat (length (sent q (hist l0 pre))) = a + Z.of_nat (reads k (hist l0 pre)) * p_Ns p) ->
    forall pre t post, evs = pre ++ (t, (k, Up)) :: post ->
      Z.of_nat (length (received q k (hist l0 pre))) = if Nat.eqb (reads k (hist l0 pre)) 0 then a else p_Ns p.
  Proof.
    intros l0 Hv H pre t post E. specialize (H pre t post E) as H0.
    destruct (Nat.eqb_spec (reads k (hist l0 pre)) 0) as [E0|E0].
    - rewrite received_none by exact E0. rewrite E0 in H0. lia.
    - destruct (last_read A k _ E0) as [h1 [h2 [Eh E2]]].
      assert (Hsplit : exists pre1 t1 pre2, pre = pre1 ++ (t1, (k, Up)) :: pre2 /\ hist l0 pre1 = h1).
      { assert (Hlen : length (hist l0 pre) = (length h1 + S (length h2))%nat) by (rewrite Eh, app_length; reflexivity).
        rewrite hist_length in Hlen.
        assert (Hpre : pre = firstn (length h1) pre ++ skipn (length h1) pre) by (symmetry; apply firstn_skipn).
        destruct (skipn (length h1) pre) as [|[t1 [k1 ty1]] pre2] eqn:Es.
        { assert (X := skipn_length (length h1) pre). rewrite Es in X. simpl in X. lia. }
        rewrite Hpre in Eh. rewrite hist_app in Eh.
        assert (Hl1 : length (hist l0 (firstn (length h1) pre)) = length h1) by (rewrite hist_length, firstn_length; lia).
        assert (E1 : hist l0 (firstn (length h1) pre) = h1).
        { apply (app_eq_len _ _ _ _ Eh Hl1). }
        rewrite E1 in Eh. apply app_inv_head in Eh. cbn [hist] in Eh. injection Eh as Eh1 Eh2.
        exists (firstn (length h1) pre), t1, pre2. split; [|exact E1]. rewrite Hpre at 1. f_equal. f_equal.
        assert (Hin : In (t1, (k1, ty1)) evs).
        { rewrite E, Hpre. apply in_or_app. left. apply in_or_app. right. left. reflexivity. }
        destruct (Hv _ Hin) as [_ Hty]. simpl in Hty. destruct Hty as [->| ->]; congruence. }
      destruct Hsplit as [pre1 [t1 [pre2 [Ep Eh1]]]].
      assert (H1 := H pre1 t1 (pre2 ++ (t, (k, Up)) :: post)).
      rewrite E, Ep, <- app_assoc in H1. specialize (H1 eq_refl). rewrite Eh1 in H1.
      rewrite Eh in H0 |- *. rewrite (received_since A q k h1 h2 E2).
      assert (Er : reads k (h1 ++ Read k :: h2) = S (reads k h1)).
      { unfold reads in *. rewrite filter_app, app_length. cbn [filter]. rewrite Nat.eqb_refl. cbn [length]. lia. }
      rewrite Er in H0. rewrite sent_app, app_length in H0. change (sent q (Read k :: h2)) with (sent q h2) in H0. lia.
  Qed.
End S.
