(** Lemmas for C66: the updates of a scheduled run are regular. *)
From Verif Require Import Base BaseFacts Sched SchedSpec InstSpec InstFacts SchedProps Chunk ChunkSpec ChunkProps Online OnlineSpec OutSpec.
Local Open Scope Z_scope.

Lemma sorted_same (l l' : list Z) : StronglySorted Z.lt l -> StronglySorted Z.lt l' -> (forall x, In x l <-> In x l') -> l = l'.
Proof.
  intros H. revert l'. induction H as [|a l H IH HF]; intros l' H' E.
  - destruct l' as [|b l']; [reflexivity|]. destruct (proj2 (E b) (or_introl eq_refl)).
  - destruct H' as [|b l' H' HF']; [destruct (proj1 (E a) (or_introl eq_refl))|]. rewrite Forall_forall in HF, HF'.
    assert (a = b).
    { destruct (proj1 (E a) (or_introl eq_refl)) as [->|Ha]; [reflexivity|]. destruct (proj2 (E b) (or_introl eq_refl)) as [->|Hb]; [reflexivity|].
      specialize (HF _ Hb). specialize (HF' _ Ha). lia. }
    subst b. f_equal. apply IH; [exact H'|]. intros x. split; intros Hx.
    + destruct (proj1 (E x) (or_intror Hx)) as [<-|?]; [specialize (HF _ Hx); lia|assumption].
    + destruct (proj2 (E x) (or_intror Hx)) as [<-|?]; [specialize (HF' _ Hx); lia|assumption].
Qed.

Lemma flat_updates k sched : updates_of k (flat_events sched) =
  flat_map (fun i => map (fun e => (in_t i, e)) (filter (fun e => is_update k (in_t i, e)) (in_evs i))) sched.
Proof.
  unfold updates_of, flat_events. induction sched as [|i sched IH]; cbn [flat_map]; [reflexivity|]. rewrite filter_app, IH. f_equal.
  induction (in_evs i) as [|e l IHl]; cbn; [reflexivity|]. destruct (is_update k (in_t i, e)); cbn; now rewrite IHl.
Qed.

Lemma one_update k t evs : NoDup evs -> (length (filter (fun e => is_update k (t, e)) evs) <= 1)%nat.
Proof.
  intros H. assert (ND := NoDup_filter (fun e => is_update k (t, e)) evs H).
  set (l := filter _ evs) in *. assert (A : forall e, In e l -> e = (k, Up)).
  { intros e He. apply filter_In in He. destruct He as [_ He]. unfold is_update in He. destruct e as [k' ty]. cbn in He. destruct ty; try discriminate.
    apply Nat.eqb_eq in He. now subst. }
  destruct l as [|a [|b l]]; cbn; [lia..|]. exfalso. rewrite (A a), (A b) in ND by (cbn; auto). inversion ND as [|? ? N _]. apply N. now left.
Qed.

Lemma updates_sorted k sched : StronglySorted Z.lt (map in_t sched) -> (forall i, In i sched -> NoDup (in_evs i)) ->
  StronglySorted Z.lt (map fst (updates_of k (flat_events sched))).
Proof.
  intros HS HN. rewrite flat_updates.
  induction sched as [|i sched IH]; [constructor|]. cbn [flat_map map]. cbn [map] in HS. inversion HS as [|? ? HS' HF]; subst.
  specialize (IH HS' (fun j Hj => HN j (or_intror Hj))). rewrite map_app, map_map. cbn [fst].
  pose proof (one_update k (in_t i) (in_evs i) (HN i (or_introl eq_refl))) as L1.
  assert (HA : forall t, In t (map fst (flat_map (fun i => map (fun e => (in_t i, e)) (filter (fun e => is_update k (in_t i, e)) (in_evs i))) sched)) -> in_t i < t).
  { intros t Ht. apply in_map_iff in Ht. destruct Ht as (te & <- & Hte). apply in_flat_map in Hte. destruct Hte as (j & Hj & Hte).
    apply in_map_iff in Hte. destruct Hte as (e & <- & _). cbn. rewrite Forall_forall in HF. apply HF. now apply in_map. }
  destruct (filter _ (in_evs i)) as [|a [|b l]]; cbn [map app] in *; [exact IH| |cbn in L1; lia].
  constructor; [exact IH|]. apply Forall_forall. exact HA.
Qed.

Lemma updates_members k sched t : In t (map fst (updates_of k (flat_events sched))) <-> scheduled sched t k Up.
Proof.
  split.
  - intros H. apply in_map_iff in H. destruct H as (te & <- & H). apply filter_In in H. destruct H as [H U].
    apply in_flat_map in H. destruct H as (i & Hi & H). apply in_map_iff in H. destruct H as (e & <- & He). exists i. split; [exact Hi|]. split; [reflexivity|].
    unfold is_update in U. destruct e as [k' ty]. cbn in U. destruct ty; try discriminate. apply Nat.eqb_eq in U. now subst.
  - intros (i & Hi & <- & H). apply in_map_iff. exists (in_t i, (k, Up)). split; [reflexivity|]. apply filter_In. split.
    + apply in_flat_map. exists i. split; [exact Hi|]. apply in_map_iff. now exists (k, Up).
    + unfold is_update. cbn. apply Nat.eqb_refl.
Qed.

Lemma progression_sorted a d n s : 0 < d -> StronglySorted Z.lt (map (fun u => a + Z.of_nat u * d) (seq s n)).
Proof.
  intros Hd. revert s. induction n as [|n IH]; intros s; cbn; constructor; [apply IH|].
  apply Forall_forall. intros x Hx. apply in_map_iff in Hx. destruct Hx as (u & <- & Hu). apply in_seq in Hu. nia.
Qed.

(** Number of updates of a node with [T] samples and an exact clock. *)
Definition update_count (p : sparams) (T : nat) : nat := Z.to_nat ((Z.of_nat T - 1) / p_Ns p - cdiv (p_N p) (p_Ns p)).

Lemma scheduled_updates tsort p nodes ordering_of k nd T :
  is_argsort tsort -> good_params p -> (p_whole p = true -> p_L p = p_Ns p) ->
  (forall nd, In nd nodes -> good_node nd /\ stamps nd <> []) ->
  p_ti p = false -> (p_whole p = true \/ p_efficient p = false) ->
  nth_error nodes k = Some nd -> 0 < period nd -> stamps nd = exact_clock (period nd) T ->
  exists sched, initialize_events tsort p nodes ordering_of = Ok (sched, []) /\
    map fst (updates_of k (flat_events sched)) =
    map (fun u => (cdiv (p_N p) (p_Ns p) * p_Ns p + Z.of_nat u * p_Ns p) * period nd) (seq 0 (update_count p T)).
Proof.
  intros Hs Hp Hw Hnodes Hti Heff Hk Hper Hst.
  destruct (C01_run_schedule_exact tsort p nodes ordering_of Hs Hp Hw Hnodes Hti Heff) as (sched & E & HS & HI & HM).
  exists sched. split; [exact E|]. destruct Hp as (P1 & P2 & P3).
  assert (HT : (0 < T)%nat).
  { destruct (Hnodes nd (nth_error_In _ _ Hk)) as [_ Hne]. rewrite Hst in Hne. destruct T; [now contradiction Hne|lia]. }
  assert (HL : largest (stamps nd) (Z.of_nat (T - 1) * period nd)).
  { rewrite Hst. split; [apply in_map_iff; exists (T - 1)%nat; split; [reflexivity|apply in_seq; lia]|].
    intros u Hu. apply in_map_iff in Hu. destruct Hu as (a & <- & Ha). apply in_seq in Ha. nia. }
  apply sorted_same.
  - apply updates_sorted; [exact HS|]. intros i Hi. apply (HI i Hi).
  - assert (EQ : map (fun u => (cdiv (p_N p) (p_Ns p) * p_Ns p + Z.of_nat u * p_Ns p) * period nd) (seq 0 (update_count p T)) =
      map (fun u => (cdiv (p_N p) (p_Ns p) * p_Ns p * period nd) + Z.of_nat u * (p_Ns p * period nd)) (seq 0 (update_count p T))) by (apply map_ext; intros; ring).
    rewrite EQ. apply progression_sorted. nia.
  - intros t. rewrite updates_members, HM. cbn [ev_first ev_sep].
    assert (CD : 0 <= cdiv (p_N p) (p_Ns p)) by (pose proof (cdiv_pos (p_N p) (p_Ns p) P1 P2); lia).
    assert (DIV : Z.of_nat (T - 1) * period nd / (period nd * p_Ns p) = (Z.of_nat T - 1) / p_Ns p).
    { rewrite (Z.mul_comm (period nd)), Z.div_mul_cancel_r by lia. f_equal. lia. }
    split.
    + intros (_ & nd' & s & Hk' & Hnom & Hns). assert (nd' = nd) by congruence. subst nd'.
      pose proof Hnom as (i & lt & Es & [Hin Hmax] & Hlt).
      assert (Elt : lt = Z.of_nat (T - 1) * period nd). { pose proof (Hmax _ (proj1 HL)). pose proof (proj2 HL _ Hin). lia. }
      subst lt. rewrite DIV in Hlt. rewrite Hst in Hns.
      destruct (exact_clock_event (period nd) T s (cdiv (p_N p) (p_Ns p) * p_Ns p) (p_Ns p) t Hper P2) as [Et _]; [nia| |exact Hns|].
      { exists i, (Z.of_nat (T - 1) * period nd). cbn. rewrite <- Hst. split; [exact Es|]. split; [exact HL|]. rewrite DIV. exact Hlt. }
      destruct Hns as [Hint _]. apply in_map_iff in Hint. destruct Hint as (a & Ea & _).
      apply in_map_iff. exists i. split.
      * rewrite <- Es, <- Et, <- Ea, Z.div_mul by lia. reflexivity.
      * apply in_seq. unfold update_count. nia.
    + intros H. apply in_map_iff in H. destruct H as (u & <- & Hu). apply in_seq in Hu. unfold update_count in Hu.
      set (s := cdiv (p_N p) (p_Ns p) * p_Ns p + Z.of_nat u * p_Ns p).
      assert (Hlt : s < (Z.of_nat T - 1) / p_Ns p * p_Ns p) by (unfold s; nia).
      assert (HsT : 0 <= s < Z.of_nat T).
      { split; [unfold s; nia|]. pose proof (Z.mul_div_le (Z.of_nat T - 1) (p_Ns p) P2). nia. }
      split; [now left|]. exists nd, s. split; [exact Hk|]. split.
      * exists u, (Z.of_nat (T - 1) * period nd). split; [reflexivity|]. split; [exact HL|]. now rewrite DIV.
      * rewrite Hst. split; [|split; [lia|auto]]. apply in_map_iff. exists (Z.to_nat s). split; [f_equal; lia|]. apply in_seq. lia.
Qed.
