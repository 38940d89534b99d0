(** Lemmas behind TiSchedProps.v: whole runs. *)
From Verif Require Import Base BaseFacts Sched SchedSpec SchedFacts SchedFacts2 InstSpec InstFacts TreeRootFacts SchedFacts5.
From Verif Require Import Buffers Tree TreeSpec InNet InNetSpec Online Filt Full TiRun TiSched TiSpec TiSchedSpec TiSchedFacts TiSchedFacts2 TiSchedFacts3.
From Verif Require TreeProps SyncFacts4 TiFacts4 TiProps LatestFacts5.
Open Scope Z_scope.

Lemma trees_full n nbrs_of tree_of ordering_of r : trees_over n nbrs_of tree_of ordering_of -> (r < n)%nat -> full_ordering n (ordering_of r).
Proof. intros H Hr. destruct (H r Hr) as (T1 & st & T2 & T3). exact (proj1 (TreeProps.C24_leaf_to_root n _ r st _ T1 Hr T2)). Qed.
Lemma updates_some i k : length (in_byp i) = length (in_evs i) -> (updates_of i k <> None <-> In (k, Up) (in_evs i)).
Proof.
  intros HL. unfold updates_of.
  assert (G : forall (a : list (nat * evtype)) (b : list bool), length b = length a -> (find (fun em => is_up_of k (fst em)) (combine a b) <> None <-> In (k, Up) a)).
  { clear. induction a as [|[j ty] a IH]; intros [|x b] HL; try discriminate; [cbn; tauto|]. cbn [combine find fst].
    destruct (is_up_of k (j, ty)) eqn:E.
    - unfold is_up_of in E. cbn in E. destruct ty; rewrite ?andb_false_r in E; try discriminate. rewrite andb_true_r in E. apply Nat.eqb_eq in E. subst. split; [intros _; now left|discriminate].
    - rewrite IH by (cbn in HL; lia). cbn [In]. split; [tauto|]. intros [H|H]; [|exact H]. injection H as -> ->. unfold is_up_of in E. cbn in E. rewrite Nat.eqb_refl in E. discriminate. }
  specialize (G (in_evs i) (in_byp i) HL). destruct (find _ _); cbn; rewrite <- G; intuition discriminate.
Qed.

Lemma schedule_ok p nodes per T R tsort nbrs_of tree_of ordering_of :
  common_clock p nodes per T R -> (first_update p R < hops p T)%nat -> is_argsort tsort -> trees_over (length nodes) nbrs_of tree_of ordering_of ->
  exists sched m, let roots := map (fun i => (p_start p + i) mod length nodes)%nat (seq 0 (S m)) in
    initialize_events tsort p nodes ordering_of = Ok (sched, roots) /\
    regular (length nodes) (map tree_of roots) 0 sched /\
    map in_t (filter exchanges sched) = grid (p_Ns p * per) (first_exchange p R) (hops p T) /\
    forall i k, In i sched -> (updates_of i k <> None <-> (k < length nodes)%nat /\ In (in_t i) (grid (p_Ns p * per) (first_update p R) (hops p T))).
Proof.
  intros HC HU Ht HT. destruct (prepared p nodes per T R HC HU) as (rest & tr & P1 & P2 & P3 & P4).
  pose proof (cc_start _ _ _ _ _ HC) as Hs. assert (Hn : (0 < length nodes)%nat) by lia.
  pose proof (UB p nodes per T R HC HU) as HUB. pose proof (B_pos p nodes per T R HC HU) as HB. pose proof (B_ne p nodes per T R HC HU) as HB0.
  specialize (P4 ordering_of). cbv zeta in P4. set (roots := map (fun i => (p_start p + i) mod length nodes)%nat (seq 0 (length (0 :: rest)))) in *.
  assert (Hr : forall r, In r roots -> (r < length nodes)%nat).
  { intros r H. apply in_map_iff in H as (i & <- & _). apply Nat.mod_upper_bound. lia. }
  assert (Hl : length (map ordering_of roots) = length (0 :: rest)) by (unfold roots; now rewrite !map_length, seq_length).
  assert (Hf : forall o, In o (map ordering_of roots) -> full_ordering (length nodes) o).
  { intros o Ho. apply in_map_iff in Ho as (r & <- & H). eapply trees_full; [exact HT|auto]. }
  destruct (build_total (length nodes) (p_start p) _ _ rest tr (map ordering_of roots) (p_seq p) (p_every p) Hn Hs HUB HB HB0 P3 Hl Hf tsort Ht) as [sched Eb].
  exists sched, (length rest). cbv zeta. change (seq 0 (S (length rest))) with (seq 0 (length (0 :: rest))). fold roots.
  split; [|split; [|split]].
  - unfold initialize_events. rewrite P4. cbn [bind pr_up pr_bc pr_fu pr_re pr_tr pr_orderings pr_trees]. rewrite Eb. reflexivity.
  - eapply built_regular; try exact Eb; try eassumption. reflexivity.
  - destruct (built_exact (length nodes) (p_start p) _ _ rest tr _ (p_seq p) (p_every p) Hn Hs HUB HB HB0 P3 Hl Hf tsort sched Ht Eb) as (E1 & _ & _).
    assert (G : map in_t (filter exchanges sched) = filter (fun t => memZ t (grid (p_Ns p * per) (first_exchange p R) (hops p T))) (map in_t sched)).
    { clear E1. assert (X : forall i, In i sched -> exchanges i = memZ (in_t i) (grid (p_Ns p * per) (first_exchange p R) (hops p T))).
      { intros i Hi. apply eq_true_iff_eq. rewrite memZ_In. exact (exchanges_at (length nodes) (p_start p) _ _ rest tr _ (p_seq p) (p_every p) Hn Hs HUB HB HB0 P3 Hl Hf tsort sched Ht Eb i Hi). }
      clear Eb. induction sched as [|i s IH]; [reflexivity|]. cbn [filter map]. rewrite (X i) by now left. destruct (memZ _ _); cbn [map]; rewrite IH by (intros; apply X; now right); reflexivity. }
    rewrite G. apply sorted_unique; [apply StronglySorted_filter, E1|apply grid_sorted, (step_pos p nodes per T R HC HU)|].
    intros t. rewrite filter_In, memZ_In.
    rewrite (sched_times (length nodes) (p_start p) _ _ rest tr _ (p_seq p) (p_every p) Hn Hs P2 HUB HB HB0 P3 Hl Hf tsort sched Ht Eb t). tauto.
  - intros i k Hi. rewrite updates_some.
    + exact (events_at (length nodes) (p_start p) _ _ rest tr _ (p_seq p) (p_every p) Hn Hs HUB HB HB0 P3 Hl Hf tsort sched Ht Eb i k Up Hi).
    + apply (built_exact (length nodes) (p_start p) _ _ rest tr _ (p_seq p) (p_every p) Hn Hs HUB HB HB0 P3 Hl Hf tsort sched Ht Eb), Hi.
Qed.

Lemma schedules_alike p nodes per T R tsort tsort' nbrs_of nbrs_of' tree_of tree_of' ordering_of ordering_of' :
  common_clock p nodes per T R -> (first_update p R < hops p T)%nat -> is_argsort tsort -> is_argsort tsort' ->
  trees_over (length nodes) nbrs_of tree_of ordering_of -> trees_over (length nodes) nbrs_of' tree_of' ordering_of' ->
  exists sched sched' roots,
    initialize_events tsort p nodes ordering_of = Ok (sched, roots) /\ initialize_events tsort' p nodes ordering_of' = Ok (sched', roots) /\
    Forall2 (fun i j => in_t i = in_t j /\ Permutation (in_evs i) (in_evs j) /\ forall k, updates_of i k = updates_of j k) sched sched'.
Proof.
  intros HC HU Ht Ht' HT HT'. destruct (prepared p nodes per T R HC HU) as (rest & tr & P1 & P2 & P3 & P4).
  pose proof (cc_start _ _ _ _ _ HC) as Hs. assert (Hn : (0 < length nodes)%nat) by lia.
  pose proof (UB p nodes per T R HC HU) as HUB. pose proof (B_pos p nodes per T R HC HU) as HB. pose proof (B_ne p nodes per T R HC HU) as HB0.
  pose proof (P4 ordering_of) as Q. pose proof (P4 ordering_of') as Q'. cbv zeta in Q, Q'. set (roots := map (fun i => (p_start p + i) mod length nodes)%nat (seq 0 (length (0 :: rest)))) in *.
  assert (Hr : forall r, In r roots -> (r < length nodes)%nat).
  { intros r H. apply in_map_iff in H as (i & <- & _). apply Nat.mod_upper_bound. lia. }
  assert (Hl : length (map ordering_of roots) = length (0 :: rest)) by (unfold roots; now rewrite !map_length, seq_length).
  assert (Hl' : length (map ordering_of' roots) = length (0 :: rest)) by (unfold roots; now rewrite !map_length, seq_length).
  assert (Hf : forall o, In o (map ordering_of roots) -> full_ordering (length nodes) o).
  { intros o Ho. apply in_map_iff in Ho as (r & <- & H). eapply trees_full; [exact HT|auto]. }
  assert (Hf' : forall o, In o (map ordering_of' roots) -> full_ordering (length nodes) o).
  { intros o Ho. apply in_map_iff in Ho as (r & <- & H). eapply trees_full; [exact HT'|auto]. }
  destruct (build_total (length nodes) (p_start p) _ _ rest tr (map ordering_of roots) (p_seq p) (p_every p) Hn Hs HUB HB HB0 P3 Hl Hf tsort Ht) as [sched Eb].
  destruct (build_total (length nodes) (p_start p) _ _ rest tr (map ordering_of' roots) (p_seq p) (p_every p) Hn Hs HUB HB HB0 P3 Hl' Hf' tsort' Ht') as [sched' Eb'].
  exists sched, sched', roots. unfold initialize_events. rewrite Q, Q'. cbn [bind pr_up pr_bc pr_fu pr_re pr_tr pr_orderings pr_trees]. rewrite Eb, Eb'.
  split; [reflexivity|]. split; [reflexivity|].
  exact (same_marks (length nodes) (p_start p) _ _ rest tr _ _ (p_seq p) (p_every p) tsort tsort' sched sched' Hn Hs P1 P2 HUB HB HB0 P3 Hl Hl' Hf Hf' Ht Ht' Eb Eb').
Qed.

Lemma Forall2_impl_filter sched sched' :
  Forall2 (fun i j => in_t i = in_t j /\ Permutation (in_evs i) (in_evs j) /\ forall k, updates_of i k = updates_of j k) sched sched' ->
  Forall2 (fun i j => in_t i = in_t j /\ forall k, updates_of i k = updates_of j k) (filter exchanges sched) (filter exchanges sched').
Proof.
  intros H. eapply Forall2_impl; [|apply Forall2_filter; [exact H|]].
  - cbn. intros i j (A & _ & C). auto.
  - cbn. intros i j _ _ (_ & A & _). apply exchanges_perm, A.
Qed.

(** the instants lie within the signals *)
Lemma grid_within p nodes per T R sched : common_clock p nodes per T R ->
  map in_t (filter exchanges sched) = grid (p_Ns p * per) (first_exchange p R) (hops p T) ->
  forall i, In i sched -> exchanges i = true -> exists m, (first_exchange p R <= m < hops p T)%nat /\ in_t i / per = Z.of_nat m * p_Ns p /\ Z.of_nat m * p_Ns p <= Z.of_nat T.
Proof.
  intros HC E i Hi He. assert (G : In (in_t i) (grid (p_Ns p * per) (first_exchange p R) (hops p T))) by (rewrite <- E; apply in_map, filter_In; auto).
  apply grid_In in G as (m & Hm & Et). exists m. destruct (cc_hop _ _ _ _ _ HC) as (H1 & _). pose proof (cc_per _ _ _ _ _ HC) as Hp.
  split; [exact Hm|]. rewrite Et, Z.mul_assoc, Z.div_mul by lia. split; [reflexivity|].
  unfold hops in Hm. assert (Z.of_nat (T - 1) / p_Ns p * p_Ns p <= Z.of_nat (T - 1)) by (rewrite Z.mul_comm; apply Z.mul_div_le; lia).
  assert (Z.of_nat m <= Z.of_nat (T - 1) / p_Ns p) by lia. nia.
Qed.

Lemma within_grid c y per T R sched : common_clock (o_p (tc_o c)) (o_nodes (tc_o c)) per T R ->
  (forall yk col, In yk y -> In col yk -> length col = T) ->
  map in_t (filter exchanges sched) = grid (p_Ns (o_p (tc_o c)) * per) (first_exchange (o_p (tc_o c)) R) (hops (o_p (tc_o c)) T) ->
  within_signals c y sched.
Proof.
  intros HC Hy E i k sn yk col Hi He Hsn Hyk Hcol. destruct (cc_nodes _ _ _ _ _ HC sn (nth_error_In _ _ Hsn)) as [-> _].
  rewrite (Hy yk col (nth_error_In _ _ Hyk) Hcol). destruct (grid_within _ _ _ _ _ _ HC E i Hi He) as (m & _ & -> & H). destruct (cc_hop _ _ _ _ _ HC) as (H1 & _). nia.
Qed.
Lemma danse_alike c y per T R tsort tsort' nbrs_of nbrs_of' tree_of tree_of' ordering_of ordering_of' nodes :
  common_clock (o_p (tc_o c)) (o_nodes (tc_o c)) per T R -> (first_update (o_p (tc_o c)) R < hops (o_p (tc_o c)) T)%nat ->
  is_argsort tsort -> is_argsort tsort' -> length nodes = length (o_nodes (tc_o c)) ->
  (forall yk col, In yk y -> In col yk -> length col = T) ->
  trees_over (length nodes) nbrs_of tree_of ordering_of -> trees_over (length nodes) nbrs_of' tree_of' ordering_of' ->
  (exists s s', ti_danse tsort c y tree_of ordering_of nodes = Ok s /\ ti_danse tsort' c y tree_of' ordering_of' nodes = Ok s' /\
     ts_nodes s = ts_nodes s' /\ zpb (ts_net s) = zpb (ts_net s')) \/
  (exists e e', ti_danse tsort c y tree_of ordering_of nodes = Err e /\ ti_danse tsort' c y tree_of' ordering_of' nodes = Err e').
Proof.
  intros HC HU Ht Ht' HL Hy HT HT'. rewrite HL in HT, HT'.
  destruct (schedule_ok _ _ per T R tsort nbrs_of tree_of ordering_of HC HU Ht HT) as (s1 & m1 & A1 & B1 & C1 & _).
  destruct (schedule_ok _ _ per T R tsort' nbrs_of' tree_of' ordering_of' HC HU Ht' HT') as (s2 & m2 & A2 & B2 & C2 & _).
  destruct (schedules_alike _ _ per T R tsort tsort' nbrs_of nbrs_of' tree_of tree_of' ordering_of ordering_of' HC HU Ht Ht' HT HT') as (s1' & s2' & roots & A1' & A2' & F).
  cbv zeta in A1, B1, A2, B2. set (r1 := map (fun i => _) (seq 0 (S m1))) in *. set (r2 := map (fun i => _) (seq 0 (S m2))) in *. clearbody r1 r2.
  rewrite A1 in A1'. rewrite A2 in A2'. assert (s1' = s1) by congruence. assert (s2' = s2) by congruence. subst s1' s2'. clear A1' A2'.
  unfold ti_danse. rewrite A1, A2. cbn [bind]. rewrite <- HL in B1, B2.
  destruct (cc_hop _ _ _ _ _ HC) as (H1 & H2 & H3 & H4). destruct (cc_mode _ _ _ _ _ HC) as [_ Hm].
  apply TiProps.C73_topology_independent; [nia| | | |exact B1|exact B2| |exact (Forall2_impl_filter _ _ F)].
  - destruct Hm as [W|W]; [left; exact W|right; auto].
  - exact (within_grid c y per T R s1 HC Hy C1).
  - exact (within_grid c y per T R s2 HC Hy C2).
  - intros ->. pose proof (cc_start _ _ _ _ _ HC). cbn in HL. lia.
Qed.
Lemma danse_completes c y per q T slots tsort nbrs_of tree_of ordering_of nodes :
  settings c y q T slots -> common_clock (o_p (tc_o c)) (o_nodes (tc_o c)) per T 2 -> (4 < hops (o_p (tc_o c)) T)%nat ->
  is_argsort tsort -> length nodes = length y -> trees_over (length nodes) nbrs_of tree_of ordering_of ->
  (alloc_iters (Z.of_nat T) (p_N (o_p (tc_o c))) (p_Ns (o_p (tc_o c))) < Z.of_nat slots)%Z ->
  (forall k nd, nth_error nodes k = Some nd -> ready c y T slots k nd /\ fn_i (tn_f nd) = 0%nat) ->
  exists s, ti_danse tsort c y tree_of ordering_of nodes = Ok s.
Proof.
  intros HS HC HU Ht HL HT Hsl HF. destruct (se_frame _ _ _ _ _ HS) as (Q0 & Q1 & Q2 & Q3).
  assert (HU' : (first_update (o_p (tc_o c)) 2 < hops (o_p (tc_o c)) T)%nat) by (unfold first_update; rewrite Q3; exact HU).
  rewrite HL, <- (se_nodes _ _ _ _ _ HS) in HT.
  destruct (schedule_ok _ _ per T 2 tsort nbrs_of tree_of ordering_of HC HU' Ht HT) as (s1 & m1 & A1 & B1 & C1 & D1).
  cbv zeta in A1, B1. set (r1 := map (fun i => _) (seq 0 (S m1))) in *. clearbody r1.
  unfold ti_danse. rewrite A1. cbn [bind]. rewrite (se_nodes _ _ _ _ _ HS), <- HL in B1.
  refine (TiProps.C73_completes c y _ s1 q T slots nodes HS _ _ HL _ HF _).
  - intros i k sn Hi He Hsn. destruct (cc_nodes _ _ _ _ _ HC sn (nth_error_In _ _ Hsn)) as [-> _].
    destruct (grid_within _ _ _ _ _ _ HC C1 i Hi He) as (m & Hm & E & H). rewrite E. split; [nia|]. intros Hup. apply (D1 i k Hi) in Hup as [_ Hup].
    apply grid_In in Hup as (m' & Hm' & Et). assert (m' = m).
    { assert (X : in_t i / per = Z.of_nat m' * p_Ns (o_p (tc_o c))) by (pose proof (cc_per _ _ _ _ _ HC); rewrite Et, Z.mul_assoc, Z.div_mul by lia; reflexivity). nia. }
    subst m'. unfold first_update in Hm'. rewrite Q3 in Hm'. rewrite Q1, Q2. nia.
  - exact B1.
  - intros ->. pose proof (cc_start _ _ _ _ _ HC). rewrite (se_nodes _ _ _ _ _ HS), <- HL in H. cbn in H. lia.
  - rewrite <- (map_length in_t), C1. unfold grid. rewrite map_length, seq_length. unfold first_exchange. rewrite Q3.
    unfold hops, alloc_iters in *. rewrite Q1, Q2 in *.
    assert (Hd : (Z.of_nat T - Z.of_nat (2 * q)) / Z.of_nat q = Z.of_nat T / Z.of_nat q - 2).
    { replace (Z.of_nat T - Z.of_nat (2 * q)) with (Z.of_nat T + (-2) * Z.of_nat q) by lia. rewrite Z.div_add by lia. lia. }
    assert (Hle : Z.of_nat (T - 1) / Z.of_nat q <= Z.of_nat T / Z.of_nat q) by (apply Z.div_le_mono; lia).
    rewrite Z.quot_div_nonneg in Hsl; [lia| |lia].
    assert (4 < Z.of_nat (T - 1) / Z.of_nat q) by lia. assert (Z.of_nat (T - 1) / Z.of_nat q * Z.of_nat q <= Z.of_nat (T - 1)) by (rewrite Z.mul_comm; apply Z.mul_div_le; lia). nia.
Qed.
