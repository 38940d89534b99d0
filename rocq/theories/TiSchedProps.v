(** C74: scheduled runs of topology-independent DANSE. *)
From Verif Require Import Base BaseFacts Sched SchedSpec InstSpec Buffers Tree TreeSpec TreeCheck Cx CxFacts Scm ScmSpec Dist Online Filt Ext Full InNet InNetSpec
  TiRun TiSpec TiProps TiSched TiSchedSpec TiSchedFacts3 TiSchedFacts4.
From Coq Require Import Reals Lra Sorted.
Local Open Scope nat_scope.

(** With a common clock and for whatever trees over the nodes, the schedule is built without
    failure.  The trees used are those rooted at the start node and the next ones, in turn.
    After an instant that only forms the first tree, all the nodes exchange signals at every
    hop, from the first one that follows a frame, over the latest tree formed and in the
    order of that tree; exactly at the hops with a filled frame of sums they all have an
    update scheduled. *)
Theorem C74_schedule p nodes per T R tsort nbrs_of tree_of ordering_of :
  common_clock p nodes per T R -> first_update p R < hops p T -> is_argsort tsort -> trees_over (length nodes) nbrs_of tree_of ordering_of ->
  exists sched m, let roots := map (fun i => (p_start p + i) mod length nodes) (seq 0 (S m)) in
    initialize_events tsort p nodes ordering_of = Ok (sched, roots) /\
    regular (length nodes) (map tree_of roots) 0 sched /\
    map in_t (filter exchanges sched) = map (fun h => Z.of_nat h * (p_Ns p * per))%Z (seq (first_exchange p R) (hops p T - first_exchange p R)) /\
    forall i k, In i sched -> (updates_of i k <> None <-> k < length nodes /\ exists h, first_update p R <= h < hops p T /\ in_t i = (Z.of_nat h * (p_Ns p * per))%Z).
Proof.
  intros HC HU Ht HT. destruct (schedule_ok p nodes per T R tsort nbrs_of tree_of ordering_of HC HU Ht HT) as (sched & m & A & B & C & D).
  exists sched, m. split; [exact A|]. split; [exact B|]. split; [exact C|]. intros i k Hi. rewrite (D i k Hi), grid_In. reflexivity.
Qed.

(** From the scheduler to the outputs, the run does not depend on the topology: over any two
    families of trees (and whatever the order in which numpy leaves simultaneous events),
    the nodes end up with the same filters, outputs and fused signals, or both runs fail. *)
Theorem C74_topology_independent c y per T R tsort tsort' nbrs_of nbrs_of' tree_of tree_of' ordering_of ordering_of' nodes :
  common_clock (o_p (tc_o c)) (o_nodes (tc_o c)) per T R -> first_update (o_p (tc_o c)) R < hops (o_p (tc_o c)) T ->
  is_argsort tsort -> is_argsort tsort' -> length nodes = length (o_nodes (tc_o c)) ->
  (forall yk col, In yk y -> In col yk -> length col = T) ->
  trees_over (length nodes) nbrs_of tree_of ordering_of -> trees_over (length nodes) nbrs_of' tree_of' ordering_of' ->
  (exists s s', ti_danse tsort c y tree_of ordering_of nodes = Ok s /\ ti_danse tsort' c y tree_of' ordering_of' nodes = Ok s' /\
     ts_nodes s = ts_nodes s' /\ zpb (ts_net s) = zpb (ts_net s')) \/
  (exists e e', ti_danse tsort c y tree_of ordering_of nodes = Err e /\ ti_danse tsort' c y tree_of' ordering_of' nodes = Err e').
Proof. exact (danse_alike c y per T R tsort tsort' nbrs_of nbrs_of' tree_of tree_of' ordering_of ordering_of' nodes). Qed.

(** Runs in whole chunks with unrelaxed external filters complete over every family of
    trees, with as many iterations as the nodes allocate. *)
Theorem C74_completes c y per q T slots tsort nbrs_of tree_of ordering_of nodes :
  settings c y q T slots -> common_clock (o_p (tc_o c)) (o_nodes (tc_o c)) per T 2 -> 4 < hops (o_p (tc_o c)) T ->
  is_argsort tsort -> length nodes = length y -> trees_over (length nodes) nbrs_of tree_of ordering_of ->
  (alloc_iters (Z.of_nat T) (p_N (o_p (tc_o c))) (p_Ns (o_p (tc_o c))) < Z.of_nat slots)%Z ->
  (forall k nd, nth_error nodes k = Some nd -> ready c y T slots k nd /\ fn_i (tn_f nd) = 0) ->
  exists s, ti_danse tsort c y tree_of ordering_of nodes = Ok s.
Proof. exact (danse_completes c y per q T slots tsort nbrs_of tree_of ordering_of nodes). Qed.

(** ** Three single-sensor nodes with a common clock and six samples each; once over the
    chain 0-1-2, once over the star 1-0-2 *)
Definition c74_cfg : tcfg :=
  mkTC (mkAC (c73_o true true 2 1 1) (mkF true 0 false false) (fun _ => / 2)%R (fun _ _ _ => false) c73_solve (fun _ => mkX false 0 false true (/ 2) (/ 2) 1)
    (repeat [true; false; true; true; true; true] 3)) 1.
Definition c74_node : tnode :=
  ti_node0 c74_cfg (fnode_init (est_init (fun _ => ident) c73_ones 6 2) (Some (est_init (fun _ => ident) c73_ones 6 1)) None None) (mkXS 0 (repeat c73_ones 6) c73_ones 0) (repeat 0%R 6) (repeat 0%R 6) [].
Definition c74_ordering (nb : list (list nat)) (r : nat) : ordering := match orientate nb r with Ok (_, o) => o | Err _ => [] end.
Definition c74_sort : list event -> list event := isort_by ev_t.
Lemma c74_argsort : is_argsort c74_sort.
Proof. intros l. split; [apply isort_by_perm|apply isort_by_sorted]. Qed.
Lemma c74_argsort' : is_argsort (fun l => c74_sort (rev l)).
Proof. intros l. split; [etransitivity; [apply isort_by_perm|symmetry; apply Permutation_rev]|apply isort_by_sorted]. Qed.
Lemma c74_trees nb : tree_check nb = true -> length nb = 3 ->
  (forall r, r < 3 -> exists so, orientate nb r = Ok so) -> trees_over 3 (fun _ => nb) (c73_tree nb) (c74_ordering nb).
Proof.
  intros H1 H2 H3 r Hr. split; [rewrite <- H2; apply tree_check_ok, H1|]. destruct (H3 r Hr) as [[st o] E]. exists st. unfold c74_ordering, c73_tree. rewrite E. auto.
Qed.
Lemma c74_chain : trees_over 3 (fun _ => c73_chain) (c73_tree c73_chain) (c74_ordering c73_chain).
Proof. apply c74_trees; [reflexivity..|]. intros r Hr. destruct r as [|[|[|r]]]; [vm_compute; eexists; reflexivity..|lia]. Qed.
Lemma c74_star : trees_over 3 (fun _ => c73_star) (c73_tree c73_star) (c74_ordering c73_star).
Proof. apply c74_trees; [reflexivity..|]. intros r Hr. destruct r as [|[|[|r]]]; [vm_compute; eexists; reflexivity..|lia]. Qed.
Lemma c74_clock : common_clock (o_p (tc_o c74_cfg)) (o_nodes (tc_o c74_cfg)) 1 6 2.
Proof.
  constructor; [lia|repeat split; (lia || reflexivity)|split; [reflexivity|left; reflexivity]| |cbn; lia].
  intros nd H. apply repeat_spec in H as ->. split; reflexivity.
Qed.
(** The schedule over the star, updates in turn: the first tree is formed at the start and
    rooted at node 0; exchanges at hops 2, 3 and 4, updates at hop 4. *)
Example C74_ex_schedule : exists s1 s2 s3,
  initialize_events c74_sort (o_p (tc_o c74_cfg)) (o_nodes (tc_o c74_cfg)) (c74_ordering c73_star) =
    Ok ([mkInst 0 [(0, Tr)] [false]; mkInst 2 s1 (repeat false 9); mkInst 3 s2 (repeat false 9);
         mkInst 4 s3 (repeat false 9 ++ [false; true; true])], [0]) /\
  s1 = [(1, Fu); (2, Fu); (0, Fu); (1, Bc); (2, Bc); (0, Bc); (0, Re); (1, Re); (2, Re)].
Proof. do 3 eexists. split; reflexivity. Qed.
Lemma c74_settings : settings c74_cfg c73_y 1 6 6.
Proof.
  constructor; try (repeat split; (lia || reflexivity)).
  - repeat (constructor; [split; [discriminate|repeat constructor]|]). constructor.
  - intros k Hk. exists [true; false; true; true; true; true]. split; [|cbn; lia]. destruct k as [|[|[|k]]]; [reflexivity..|cbn in Hk; lia].
  - intros m ryy rnn f _ E. cbn [ac_solve tc_a c74_cfg] in E. unfold c73_solve in E. replace (Nat.eqb m (S m - 1)) with true in E by (symmetry; apply Nat.eqb_eq; lia).
    apply (f_equal re) in E. cbn in E. lra.
Qed.
Lemma c74_ready k : k < 3 -> ready c74_cfg c73_y 6 6 k c74_node.
Proof.
  intros Hk. assert (L : length (nth k c73_y []) = 1) by (destruct k as [|[|[|k]]]; [reflexivity..|lia]).
  assert (F : Forall (never_zero (tc_bins c74_cfg) 1) (repeat c73_ones 6)).
  { apply Forall_forall. intros w Hw. apply repeat_spec in Hw. subst w. intros f _ E. apply (f_equal re) in E. cbn in E. lra. }
  constructor; rewrite ?L.
  - split; [reflexivity|exact F].
  - reflexivity.
  - split; [eexists; split; reflexivity|split; reflexivity].
  - split; [reflexivity|]. split; [reflexivity|exact F].
  - split; reflexivity.
Qed.
Lemma c74_long : 4 < hops (o_p (tc_o c74_cfg)) 6.
Proof. unfold hops. change (p_Ns (o_p (tc_o c74_cfg))) with 1%Z. apply Nat.ltb_lt. reflexivity. Qed.
Lemma c74_alloc : (alloc_iters (Z.of_nat 6) (p_N (o_p (tc_o c74_cfg))) (p_Ns (o_p (tc_o c74_cfg))) < Z.of_nat 6)%Z.
Proof. change (p_Ns (o_p (tc_o c74_cfg))) with 1%Z. change (p_N (o_p (tc_o c74_cfg))) with 2%Z. reflexivity. Qed.
Example C74_ex_completes :
  (exists s, ti_danse c74_sort c74_cfg c73_y (c73_tree c73_chain) (c74_ordering c73_chain) (repeat c74_node 3) = Ok s) /\
  (exists s, ti_danse c74_sort c74_cfg c73_y (c73_tree c73_star) (c74_ordering c73_star) (repeat c74_node 3) = Ok s).
Proof.
  assert (G : forall k nd, nth_error (repeat c74_node 3) k = Some nd -> ready c74_cfg c73_y 6 6 k nd /\ fn_i (tn_f nd) = 0).
  { intros k nd H. assert (k < 3) by (change 3 with (length (repeat c74_node 3)); apply nth_error_Some; congruence).
    apply nth_error_In, repeat_spec in H. subst nd. split; [now apply c74_ready|reflexivity]. }
  split.
  - exact (C74_completes c74_cfg c73_y 1 1 6 6 c74_sort (fun _ => c73_chain) (c73_tree c73_chain) (c74_ordering c73_chain) (repeat c74_node 3) c74_settings c74_clock c74_long c74_argsort eq_refl c74_chain c74_alloc G).
  - exact (C74_completes c74_cfg c73_y 1 1 6 6 c74_sort (fun _ => c73_star) (c73_tree c73_star) (c74_ordering c73_star) (repeat c74_node 3) c74_settings c74_clock c74_long c74_argsort eq_refl c74_star c74_alloc G).
Qed.
Lemma ok_not_err {A} (r : res A) a e : r = Ok a -> r = Err e -> False.
Proof. intros -> H. discriminate. Qed.
Example C74_ex_same : exists s s',
  ti_danse c74_sort c74_cfg c73_y (c73_tree c73_chain) (c74_ordering c73_chain) (repeat c74_node 3) = Ok s /\
  ti_danse (fun l => c74_sort (rev l)) c74_cfg c73_y (c73_tree c73_star) (c74_ordering c73_star) (repeat c74_node 3) = Ok s' /\
  ts_nodes s = ts_nodes s' /\ zpb (ts_net s) = zpb (ts_net s').
Proof.
  assert (HS : forall yk col, In yk c73_y -> In col yk -> length col = 6).
  { intros yk col H1 H2. repeat (destruct H1 as [<-|H1]; [destruct H2 as [<-|[]]; reflexivity|]). destruct H1. }
  assert (HU : first_update (o_p (tc_o c74_cfg)) 2 < hops (o_p (tc_o c74_cfg)) 6) by exact c74_long.
  pose proof (C74_topology_independent c74_cfg c73_y 1 6 2 c74_sort (fun l => c74_sort (rev l)) (fun _ => c73_chain) (fun _ => c73_star) (c73_tree c73_chain) (c73_tree c73_star)
    (c74_ordering c73_chain) (c74_ordering c73_star) (repeat c74_node 3) c74_clock HU c74_argsort c74_argsort' eq_refl HS c74_chain c74_star) as H.
  destruct H as [H|(e & e' & H & _)]; [exact H|].
  exfalso. destruct C74_ex_completes as [[s E] _]. exact (ok_not_err _ _ _ E H).
Qed.

Print Assumptions C74_schedule.
Print Assumptions C74_topology_independent.
Print Assumptions C74_completes.
