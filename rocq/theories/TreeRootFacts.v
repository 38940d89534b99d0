(** The tree in force is rooted at the updating node (sequential TI-DANSE). *)
From Verif Require Import Base BaseFacts Sched SchedSpec SchedFacts SchedFacts2 SchedFacts3 InstSpec InstFacts.
Open Scope Z_scope.

Lemma idle_nonneg l : 0 <= idle l.
Proof. induction l as [|i l IH]; simpl; [lia|]. destruct (performed i); destruct (carries_up i); lia. Qed.

Section Greedy.
  Variables (n first : nat) (up : list (list Z)).
  Hypothesis Hn : n = length up.
  Hypothesis Hn0 : (0 < n)%nat.

  Definition nxt (j : nat) : nat := ((first + j) mod n)%nat.

  Fixpoint steps (s : list instant) (j : nat) : Prop :=
    match s with
    | [] => True
    | i :: s' =>
      (In (nxt j, Up) (in_evs i) -> performed i = [nxt j] /\ steps s' (S j)) /\
      (~ In (nxt j, Up) (in_evs i) -> performed i = [] /\ steps s' j)
    end.

  Lemma greedy s : forall j curr lo ts,
    StronglySorted Z.lt (map in_t s) ->
    (forall i, In i s -> lo < in_t i) ->
    curr <= lo ->
    (forall k t, listed up k t -> lo < t -> exists i, In i s /\ in_t i = t /\ In (k, Up) (in_evs i)) ->
    (forall i k, In i s -> In (k, Up) (in_evs i) -> listed up k (in_t i)) ->
    (forall l u, nth_error up (nxt j) = Some l -> In u l -> curr < u -> lo < u) ->
    steps s j ->
    cyclic_chain up (first + j) curr ts ->
    firstn (length ts) (timed_updates s) = combine ts (cyc (first + j) (length ts) n).
  Proof.
    induction s as [|i s IH]; intros j curr lo ts Hs Hlo Hcl Hall Hlist Hgap Hst Hch.
    - destruct ts as [|t ts]; [reflexivity|]. exfalso.
      destruct Hch as [[l [Hl [H1 [H2 _]]]] _]. rewrite <- Hn in Hl. fold (nxt j) in Hl.
      destruct (Hall (nxt j) t) as [i [[] _]]; [exists l; auto | eapply Hgap; eauto].
    - destruct ts as [|t ts]; [reflexivity|].
      destruct Hch as [[l [Hl [Ht1 [Ht2 Ht3]]]] Hch]. rewrite <- Hn in Hl. fold (nxt j) in Hl.
      simpl in Hs. inversion Hs as [|? ? Hs' Hf]; subst. rewrite Forall_forall in Hf.
      destruct Hst as [Hst1 Hst2].
      assert (Hlt : lo < t) by (eapply Hgap; eauto).
      destruct (in_dec pairdec (nxt j, Up) (in_evs i)) as [Hin|Hni].
      + destruct (Hst1 Hin) as [Hp Hst].
        assert (Et : t = in_t i).
        { destruct (Hlist i (nxt j) (or_introl eq_refl) Hin) as [l' [Hl' Hil]].
          assert (l' = l) by congruence. subst l'.
          assert (Hge : t <= in_t i) by (apply Ht3; [exact Hil|]; specialize (Hlo i (or_introl eq_refl)); lia).
          destruct (Hall (nxt j) t) as [i' [Hi' [Hti' _]]]; [exists l; auto | exact Hlt |].
          destruct Hi' as [<-|Hi']; [symmetry; exact Hti'|].
          specialize (Hf (in_t i') (in_map in_t _ _ Hi')). lia. }
        unfold timed_updates. cbn [flat_map]. rewrite Hp. cbn [map app length firstn combine].
        fold (timed_updates s). rewrite cyc_S. cbn [combine]. rewrite Et at 1. f_equal.
        replace (S (first + j)) with (first + S j)%nat in * by lia.
        apply (IH (S j) t (in_t i)); auto.
        * intros i' Hi'. apply Hf. apply in_map; exact Hi'.
        * lia.
        * intros k u Hku Hu. destruct (Hall k u Hku) as [i' [Hi' [Hti' Hk]]].
          { specialize (Hlo i (or_introl eq_refl)). lia. }
          destruct Hi' as [<-|Hi']; [lia|]. eauto.
        * intros i' k Hi'. apply Hlist. right; exact Hi'.
        * intros l' u _ _ Hu. lia.
      + destruct (Hst2 Hni) as [Hp Hst].
        unfold timed_updates. cbn [flat_map]. rewrite Hp. cbn [map app].
        fold (timed_updates s).
        assert (Hit : ~ In (in_t i) l).
        { intros Hil. destruct (Hall (nxt j) (in_t i)) as [i' [Hi' [Hti' Hk]]].
          - exists l; auto.
          - apply Hlo; left; reflexivity.
          - destruct Hi' as [<-|Hi']; [contradiction|].
            specialize (Hf (in_t i') (in_map in_t _ _ Hi')). lia. }
        apply (IH j curr (in_t i) (t :: ts)); auto.
        * intros i' Hi'. apply Hf. apply in_map; exact Hi'.
        * specialize (Hlo i (or_introl eq_refl)). lia.
        * intros k u Hku Hu. destruct (Hall k u Hku) as [i' [Hi' [Hti' Hk]]].
          { specialize (Hlo i (or_introl eq_refl)). lia. }
          destruct Hi' as [<-|Hi']; [lia|]. eauto.
        * intros i' k Hi'. apply Hlist. right; exact Hi'.
        * intros l' u Hl' Hu Hcu. assert (l' = l) by congruence. subst l'.
          assert (Hlu : lo < u) by (eapply Hgap; eauto).
          destruct (Hall (nxt j) u) as [i' [Hi' [Hti' Hk]]]; [exists l; auto | exact Hlu |].
          destruct Hi' as [<-|Hi']; [subst u; contradiction|].
          specialize (Hf (in_t i') (in_map in_t _ _ Hi')). lia.
        * cbn [cyclic_chain]. split; [|exact Hch]. exists l.
          split; [rewrite <- Hn; exact Hl | repeat split; assumption].
  Qed.
End Greedy.

Lemma length_le1 {A} (l : list A) x : (length l <= 1)%nat -> In x l -> l = [x].
Proof. destruct l as [|a [|b l]]; simpl; intros H Hin; [destruct Hin | destruct Hin as [->|[]]; reflexivity | lia]. Qed.

Lemma attach_steps n first mf gs pre s :
  (0 < n)%nat -> mf <= 1 -> (forall g, In g gs -> NoDup (snd g)) ->
  attach true n mf (init_byp first) gs = pre ++ s ->
  steps n first s (length (updates pre)).
Proof.
  intros Hn Hmf Hnd. revert pre; induction s as [|i s IH]; intros pre H; [exact I|].
  pose proof (bypass_exact true n mf first gs pre i s Hn Hnd H) as HB.
  assert (Hone : (length (performed i) <= 1)%nat).
  { eapply performed_one with (isseq := true); [reflexivity | exact Hnd |]. rewrite H. apply in_or_app; right; left; reflexivity. }
  assert (Hidle := idle_nonneg (rev pre)).
  assert (H' : attach true n mf (init_byp first) gs = (pre ++ [i]) ++ s) by (rewrite <- app_assoc; exact H).
  specialize (IH (pre ++ [i]) H'). unfold updates in IH. rewrite flat_map_app in IH. simpl in IH.
  rewrite app_nil_r, app_length in IH. fold (updates pre) in IH.
  assert (Hmod : forall k, Z.of_nat k = (Z.of_nat first + Z.of_nat (length (updates pre))) mod Z.of_nat n
                  <-> k = nxt n first (length (updates pre))).
  { intros k. unfold nxt. rewrite <- Nat2Z.inj_add, <- Nat2Z.inj_mod. lia. }
  simpl. split.
  - intros Hin. assert (Hp : performed i = [nxt n first (length (updates pre))]).
    { apply length_le1; [exact Hone|]. apply HB. split; [exact Hin|]. split; [lia|]. intros _. apply Hmod. reflexivity. }
    split; [exact Hp|]. rewrite Hp in IH. simpl in IH. rewrite Nat.add_1_r in IH. exact IH.
  - intros Hni. assert (Hp : performed i = []).
    { destruct (performed i) as [|k l] eqn:E; [reflexivity|]. exfalso.
      destruct (proj1 (HB k) (or_introl eq_refl)) as [Hk [_ Hs]].
      apply Hni. rewrite <- (proj1 (Hmod k) (Hs eq_refl)). exact Hk. }
    split; [exact Hp|]. rewrite Hp in IH. simpl in IH. rewrite Nat.add_0_r in IH. exact IH.
Qed.

Lemma build_groups_nodup tsort up bc fuse re tr os isseq first mf sched :
  is_argsort tsort ->
  (ti_flag up fuse = true -> forall o, In o os -> full_ordering (length up) o) ->
  build_events_matrix tsort up bc fuse re tr os isseq first mf = Ok sched ->
  exists gs, sched = attach isseq (length up) mf (init_byp first) gs /\
             forall g, In g gs -> NoDup (snd g).
Proof.
  intros Hs Ho H.
  destruct (exact_schedule_build _ _ _ _ _ _ _ _ _ _ _ Hs Ho H) as [_ [Hev _]].
  destruct (build_inv _ _ _ _ _ _ _ _ _ _ _ Hs H)
    as [upI [bcI [fuI [reI [trI [gs [_ [_ [_ [_ [_ [_ ->]]]]]]]]]]]].
  exists gs. split; [reflexivity|]. intros [t g] Hg.
  destruct (proj2 (attach_In isseq (length up) mf (init_byp first) gs t g) Hg) as [i [Hi [_ <-]]].
  apply Hev in Hi. simpl. tauto.
Qed.

(** counting tree formations *)
Definition tr_events (s : list instant) (T : Z) : list (Z * nat) :=
  flat_map (fun i => map (fun e => (in_t i, fst e))
                         (filter (fun e => match snd e with Tr => true | _ => false end) (in_evs i)))
           (filter (fun i => in_t i <=? T) s).

Lemma trees_formed_length s T : trees_formed s T = length (tr_events s T).
Proof.
  unfold trees_formed, tr_events. induction (filter (fun i => in_t i <=? T) s) as [|i l IH]; simpl; [reflexivity|].
  rewrite filter_app, !app_length, map_length, IH. reflexivity.
Qed.

Lemma tr_events_In s T t k : In (t, k) (tr_events s T) <-> t <= T /\ scheduled s t k Tr.
Proof.
  unfold tr_events, scheduled. rewrite in_flat_map. split.
  - intros [i [Hi Hk]]. apply filter_In in Hi. destruct Hi as [Hi Ht]. apply in_map_iff in Hk.
    destruct Hk as [[k' ty] [E He]]. apply filter_In in He. destruct He as [He Hty]. simpl in *.
    inversion E; subst. destruct ty; try discriminate. split; [lia | exists i; auto].
  - intros [Ht [i [Hi [E Hk]]]]. exists i. split; [apply filter_In; split; [exact Hi | lia]|].
    apply in_map_iff. exists (k, Tr). split; [simpl; congruence|]. apply filter_In. split; [exact Hk | reflexivity].
Qed.

Lemma tr_events_NoDup s T :
  StronglySorted Z.lt (map in_t s) -> (forall i, In i s -> NoDup (in_evs i)) -> NoDup (tr_events s T).
Proof.
  unfold tr_events. induction s as [|i s IH]; intros Hs Hn; simpl; [constructor|].
  simpl in Hs. inversion Hs as [|? ? Hs' Hf]; subst. rewrite Forall_forall in Hf.
  assert (IH' := IH Hs' (fun j Hj => Hn j (or_intror Hj))).
  destruct (in_t i <=? T); [|exact IH']. simpl. apply NoDup_app.
  - apply NoDup_map_inj.
    + intros [k ty] [k' ty'] Hx Hy E. apply filter_In in Hx. apply filter_In in Hy. simpl in *.
      destruct Hx as [_ Hx]. destruct Hy as [_ Hy]. destruct ty; try discriminate. destruct ty'; try discriminate. congruence.
    + apply NoDup_filter. apply Hn; left; reflexivity.
  - exact IH'.
  - intros [t k] H1 H2. apply in_map_iff in H1. destruct H1 as [e [E _]]. inversion E; subst.
    apply in_flat_map in H2. destruct H2 as [j [Hj Hjk]]. apply in_map_iff in Hjk. destruct Hjk as [e' [E' _]].
    inversion E'. apply filter_In in Hj. destruct Hj as [Hj _].
    specialize (Hf (in_t j) (in_map in_t _ _ Hj)). lia.
Qed.

Lemma combine_filter_length {A B} (f : A -> bool) (a : list A) (b : list B) :
  length a = length b -> length (filter (fun p => f (fst p)) (combine a b)) = length (filter f a).
Proof.
  revert b; induction a as [|x a IH]; intros [|y b] H; simpl in *; try discriminate; [reflexivity|].
  destruct (f x); simpl; rewrite IH by lia; reflexivity.
Qed.

Lemma combine_NoDup {A B} (a : list A) (b : list B) : NoDup a -> NoDup (combine a b).
Proof.
  intros H; revert b; induction H as [|x a Hx Ha IH]; intros [|y b]; simpl; try constructor.
  - intros Hin. apply in_combine_l in Hin. contradiction.
  - apply IH.
Qed.

Lemma Forall2_get_seq {A} (P : nat -> A -> Prop) n (l : list A) k x :
  Forall2 P (seq 0 n) l -> nth_error l k = Some x -> (k < n)%nat /\ P k x.
Proof.
  intros H Hk. assert (Hl : length l = n).
  { rewrite <- (seq_length n 0). clear Hk. induction H; simpl; congruence. }
  assert (Hkn : (k < n)%nat) by (rewrite <- Hl; apply nth_error_Some; congruence).
  split; [exact Hkn|].
  assert (Hs : nth_error (seq 0 n) k = Some k).
  { rewrite (nth_error_nth' _ 0%nat) by (rewrite seq_length; exact Hkn). rewrite seq_nth by exact Hkn. reflexivity. }
  exact (Forall2_nth_error _ _ _ _ _ _ H Hs Hk).
Qed.

Lemma mask_listed trI ix n tr :
  mapM (mask_select trI ix) (seq 0 n) = Ok tr ->
  (0 < n)%nat ->
  length trI = length ix /\ length tr = n /\
  forall k t, listed tr k t <-> (k < n)%nat /\ In (t, k) (combine trI ix).
Proof.
  intros H Hn. assert (Hlen : length trI = length ix).
  { destruct n as [|n]; [lia|]. cbn [seq mapM] in H. destruct (bind_ok _ _ _ H) as [y [Hy _]].
    unfold mask_select in Hy. destruct (Nat.eqb_spec (length trI) (length ix)); [assumption | discriminate]. }
  assert (Hl2 := mapM_length _ _ _ H). rewrite seq_length in Hl2.
  split; [exact Hlen|]. split; [exact Hl2|].
  apply mapM_ok in H.
  assert (Hsel : forall k l, nth_error tr k = Some l -> (k < n)%nat /\ l = map fst (filter (fun p => Nat.eqb (snd p) k) (combine trI ix))).
  { intros k l Hk. destruct (Forall2_get_seq _ _ _ _ _ H Hk) as [Hkn Hm]. split; [exact Hkn|].
    unfold mask_select in Hm. rewrite Hlen, Nat.eqb_refl in Hm. congruence. }
  intros k t. split.
  - intros [l [Hl Ht]]. destruct (Hsel _ _ Hl) as [Hkn ->]. split; [exact Hkn|].
    apply in_map_iff in Ht. destruct Ht as [[a b] [E Hin]]. apply filter_In in Hin. destruct Hin as [Hin Hb].
    apply Nat.eqb_eq in Hb. simpl in *. subst. exact Hin.
  - intros [Hkn Hin]. destruct (nth_error tr k) as [l|] eqn:El.
    2:{ apply nth_error_None in El. lia. }
    exists l. split; [exact El|]. destruct (Hsel _ _ El) as [_ ->].
    apply in_map_iff. exists (t, k). split; [reflexivity|]. apply filter_In. split; [exact Hin | apply Nat.eqb_refl].
Qed.

Lemma cyc_length s l n : length (cyc s l n) = l.
Proof. unfold cyc. rewrite map_length, seq_length. reflexivity. Qed.

Lemma cyc_nth s l n i : (i < l)%nat -> nth_error (cyc s l n) i = Some ((s + i) mod n)%nat.
Proof.
  intros H. unfold cyc. rewrite nth_error_map.
  rewrite (nth_error_nth' _ 0%nat) by (rewrite seq_length; exact H). rewrite seq_nth by exact H. reflexivity.
Qed.

Lemma combine_nth_error {A B} (a : list A) (b : list B) i x y :
  nth_error a i = Some x -> nth_error b i = Some y -> nth_error (combine a b) i = Some (x, y).
Proof.
  revert b i; induction a as [|x0 a IH]; intros b i Ha Hb; [destruct i; discriminate|].
  destruct b as [|y0 b]; [destruct i; discriminate|]. destruct i; simpl in *; [congruence | apply IH; assumption].
Qed.

Theorem tree_root_lemma tsort p nodes ordering_of sched trees :
  is_argsort tsort -> good_params p ->
  (forall nd, In nd nodes -> good_node nd) ->
  (p_start p < length nodes)%nat ->
  (forall k, full_ordering (length nodes) (ordering_of k)) ->
  p_ti p = true -> p_seq p = true -> p_keepTree p = false -> p_every p <= 1 ->
  initialize_events tsort p nodes ordering_of = Ok (sched, trees) ->
  (exists t k, scheduled sched t k Fu) ->
  (length trees <= length (timed_updates sched))%nat /\
  forall i t k, (i < length trees)%nat -> nth_error (timed_updates sched) i = Some (t, k) ->
    trees_formed sched t = S i /\ nth_error trees i = Some k.
Proof.
  intros Hsort Hp Hnodes Hstart Hord Hti Hseq Hkeep Hevery H Hbc0.
  unfold initialize_events in H.
  destruct (bind_ok _ _ _ H) as [pr [Hpr H1]]. destruct (bind_ok _ _ _ H1) as [out [Hb H2]]. inversion H2; subst; clear H H1 H2.
  unfold prep_evmat_build in Hpr.
  destruct (bind_ok _ _ _ Hpr) as [up [Hup H1]]. destruct (bind_ok _ _ _ H1) as [bc [Hbc H2]]. clear Hpr H1.
  rewrite Hti, Hseq, Hkeep in H2. simpl andb in H2. cbv iota in H2.
  destruct (bind_ok _ _ _ H2) as [[trI ix] [Htr H3]]. clear H2.
  destruct (bind_ok _ _ _ Htr) as [[ts ix'] [Hs H4]]. clear Htr.
  destruct (bind_ok _ _ _ H4) as [t0 [Ht0 H5]]. assert (Etr : trI = upd 0 0 ts) by congruence. assert (Eix : ix' = ix) by congruence. subst trI ix'. clear H4 H5.
  destruct (bind_ok _ _ _ H3) as [tr [Hm H6]]. injection H6 as Epr; subst pr; clear H3.
  cbn [pr_up pr_fu pr_bc pr_re pr_tr pr_orderings pr_trees] in *.
  assert (Hlen := mapM_length _ _ _ Hup).
  assert (Hupl : forall l, In l up -> StronglySorted Z.le l /\ forall t, In t l -> 0 < t).
  { intros l Hl. destruct (mapM_In _ _ _ _ Hup Hl) as [nd [Hnd Hu]].
    destruct (up_of_spec _ _ _ Hp (Hnodes _ Hnd) Hu) as [A B]. split; [exact A|]. intros t Ht. apply B; exact Ht. }
  destruct (seq_up_inv up (p_start p) ts ix ltac:(lia) (fun l Hl => proj1 (Hupl l Hl)) Hs) as [Hch [Hix _]].
  destruct (mask_listed _ _ _ _ Hm ltac:(lia)) as [Hl1 [Hl2 Hlisted]].
  rewrite upd_length in Hl1.
  assert (Hfull : ti_flag up bc = true -> forall o, In o (map ordering_of (map (fun i => (p_start p + i) mod length nodes)%nat (seq 0 (length (upd 0 0 ts))))) -> full_ordering (length up) o).
  { intros _ o Ho. apply in_map_iff in Ho. destruct Ho as [k [<- _]]. rewrite Hlen. apply Hord. }
  rewrite Hseq in Hb.
  pose proof (exact_schedule_build _ _ _ _ _ _ _ _ _ _ _ Hsort Hfull Hb) as [Ht1 [Hev Hsch]].
  assert (Hflag : ti_flag up bc = true).
  { destruct Hbc0 as [tf [kf Hf]]. apply Hsch in Hf. destruct Hf as [_ Hf]. simpl in Hf. tauto. }
  destruct (build_groups_nodup _ _ _ _ _ _ _ _ _ _ _ Hsort Hfull Hb) as [gs [Egs Hgs]].
  assert (Hsteps : steps (length up) (p_start p) sched 0).
  { apply (attach_steps (length up) (p_start p) (p_every p) gs [] sched); [lia | exact Hevery | exact Hgs | symmetry; exact Egs]. }
  assert (Hgreedy : firstn (length ts) (timed_updates sched) = combine ts (cyc (p_start p + 0) (length ts) (length up))).
  {
    assert (Hmin : exists lo, lo <= -1 /\ forall i, In i sched -> lo < in_t i).
    { clear. induction sched as [|i s [lo [H1 H2]]]; [exists (-1); split; [lia | intros i []]|].
      exists (Z.min lo (in_t i - 1)). split; [lia|]. intros j [<-|Hj]; [lia | specialize (H2 j Hj); lia]. }
    destruct Hmin as [lo [Hlo1 Hlo2]].
    assert (Hch' : cyclic_chain up (p_start p + 0) lo ts).
    { rewrite Nat.add_0_r. destruct ts as [|t ts]; [exact I|]. destruct Hch as [[l [Hl [A [B C]]]] D].
      split; [|exact D]. exists l. split; [exact Hl|]. split; [exact A|]. split; [lia|].
      intros u Hu _. apply C; [exact Hu|]. apply (Hupl l (nth_error_In _ _ Hl)); exact Hu. }
    apply (greedy (length up) (p_start p) up eq_refl ltac:(lia) sched 0 lo lo ts); auto.
    - lia.
    - intros k t Hk _. apply (Hsch t k Up). split; [|exact Hk]. simpl.
      destruct Hk as [l [Hl _]]. apply nth_error_Some. congruence.
    - intros i k Hi Hk. assert (Hr : scheduled sched (in_t i) k Up) by (exists i; auto).
      apply Hsch in Hr. destruct Hr as [_ Hr]. exact Hr. }
  rewrite Nat.add_0_r in Hgreedy.
  assert (Htl : length (map (fun i => (p_start p + i) mod length nodes)%nat (seq 0 (length (upd 0 0 ts)))) = length ts).
  { rewrite map_length, seq_length, upd_length. reflexivity. }
  change (match ts with [] => [] | _ :: l' => 0 :: l' end) with (upd 0 0 ts). rewrite Htl.
  assert (Hle : (length ts <= length (timed_updates sched))%nat).
  { apply (f_equal (@length _)) in Hgreedy. rewrite firstn_length, combine_length, cyc_length in Hgreedy. lia. }
  split; [exact Hle|].
  intros i t k Hi Hnth.
  assert (Hti' : nth_error ts i = Some t /\ k = ((p_start p + i) mod length up)%nat).
  { rewrite <- (nth_error_firstn (length ts)) in Hnth by exact Hi. rewrite Hgreedy in Hnth.
    destruct (nth_error ts i) as [u|] eqn:Eu; [|apply nth_error_None in Eu; lia].
    rewrite (combine_nth_error _ _ _ _ _ Eu (cyc_nth _ _ _ _ Hi)) in Hnth. inversion Hnth; subst. auto. }
  destruct Hti' as [Hti' Hk]. split.
  - rewrite trees_formed_length.
    assert (Hcnt : length (tr_events sched t) = length (filter (fun q => fst q <=? t) (combine (upd 0 0 ts) ix))).
    { apply Permutation_length. apply NoDup_Permutation.
      - apply tr_events_NoDup; [exact Ht1|]. intros j Hj. apply Hev in Hj. tauto.
      - apply NoDup_filter, combine_NoDup.
        pose proof (chain_increasing _ _ _ _ Hch) as Hinc. destruct ts as [|t1 ts]; [constructor|]. simpl.
        inversion Hinc as [|? ? A B]; subst. inversion A as [|? ? A' B']; subst. inversion B; subst.
        apply (StronglySorted_lt_NoDup (fun x => x)). constructor; [exact A' |]. eapply Forall_impl; [|exact B']. simpl; intros; lia.
      - intros [u q]. rewrite tr_events_In, filter_In. simpl fst. rewrite Hsch. unfold requested. simpl.
        rewrite Hflag, Hlisted. rewrite <- Hlen. split; [intros [? [? [_ [? ?]]]]; split; [assumption | lia]|].
        intros [Hin Hle']. assert (Hq : (q < length up)%nat).
        { apply in_combine_r in Hin. rewrite Hix in Hin. unfold cyc in Hin. apply in_map_iff in Hin.
          destruct Hin as [a [<- _]]. apply Nat.mod_upper_bound. lia. }
        repeat split; auto; lia. }
    rewrite Hcnt. rewrite (combine_filter_length (fun u => u <=? t)) by (rewrite upd_length; exact Hl1).
    pose proof (chain_increasing _ _ _ _ Hch) as Hinc. inversion Hinc as [|? ? Hinc' Hpos]; subst.
    pose proof (filter_le_firstn ts i t Hinc' Hti') as Hfl.
    destruct ts as [|t1 ts]; [destruct i; discriminate|].
    assert (Ht1t : t1 <= t).
    { destruct i as [|i]; simpl in Hti'; [inversion Hti'; lia|]. inversion Hinc' as [|? ? _ Hf]; subst.
      rewrite Forall_forall in Hf. specialize (Hf t (nth_error_In _ _ Hti')). lia. }
    inversion Hpos as [|? ? Hp1 _]; subst.
    simpl upd. cbn [filter] in Hfl |- *. destruct (Z.leb_spec t1 t); [|lia]. destruct (Z.leb_spec 0 t); [|lia].
    apply (f_equal (@length _)) in Hfl. cbn [length] in Hfl |- *. rewrite Hfl. rewrite firstn_length. simpl length in *. lia.
  - rewrite Hk, <- Hlen. rewrite upd_length. apply cyc_nth. exact Hi.
Qed.
