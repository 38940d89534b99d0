(** Properties C01-C11: the event schedule.  Vocabulary: SchedSpec.v, InstSpec.v. *)
From Verif Require Import Base BaseFacts Sched SchedSpec SchedFacts SchedFacts2 SchedFacts3
  InstSpec InstFacts TreeRootFacts SchedFacts4 SchedFacts5.
Open Scope Z_scope.

(** A concrete sort used in the examples. *)
Definition tsort0 : list event -> list event := isort_by ev_t.
Lemma tsort0_ok : is_argsort tsort0.
Proof. intros l. split; [apply isort_by_perm | apply (isort_by_sorted _ ev_t l)]. Qed.

(** ** C01 *)
Theorem C01_schedule_exact tsort up bc fuse re tr os isseq first mf :
  is_argsort tsort -> ~ tree_mode up fuse -> length bc = length up ->
  exists sched, build_events_matrix tsort up bc fuse re tr os isseq first mf = Ok sched /\
                exact_schedule false up bc fuse re tr sched.
Proof. exact (exact_fc tsort up bc fuse re tr os isseq first mf). Qed.

Theorem C01_run_schedule_exact tsort p nodes ordering_of :
  is_argsort tsort -> good_params p -> (p_whole p = true -> p_L p = p_Ns p) ->
  (forall nd, In nd nodes -> good_node nd /\ stamps nd <> []) ->
  p_ti p = false -> (p_whole p = true \/ p_efficient p = false) ->
  exists sched, initialize_events tsort p nodes ordering_of = Ok (sched, []) /\
    StronglySorted Z.lt (map in_t sched) /\
    (forall i, In i sched -> in_evs i <> [] /\ NoDup (in_evs i) /\ StronglySorted fc_before (in_evs i)) /\
    forall t k ty, scheduled sched t k ty <->
      (ty = Up \/ ty = Bc) /\
      exists nd s, nth_error nodes k = Some nd /\ nominal_event nd (ev_first p ty) (ev_sep p ty) s /\
                   next_sample (stamps nd) (s * period nd) t.
Proof. exact (fc_run tsort p nodes ordering_of). Qed.

Example C01_example :
  build_events_matrix tsort0 [[4; 2; 4]; [2]] [[2]; [3; 2]] [[]; []] [[]; []] [[]; []] [] false 0 0
  = Ok [mkInst 2 [(0%nat, Bc); (1%nat, Bc); (0%nat, Up); (1%nat, Up)] [false; false; false; false];
        mkInst 3 [(1%nat, Bc)] [false];
        mkInst 4 [(0%nat, Up)] [false]].
Proof. reflexivity. Qed.

Definition ex_params : sparams := mkP 4 2 2 true false false true false 0 0.
Definition ex_nodes : list snode :=
  [mkNode 10 (exact_clock 10 12) [1%nat]; mkNode 11 (exact_clock 11 12) [0%nat]].
Example C01_run_example :
  (forall nd, In nd ex_nodes -> good_node nd /\ stamps nd <> []) /\ good_params ex_params /\
  exists s, initialize_events tsort0 ex_params ex_nodes (fun _ => []) = Ok (s, []) /\ length s = 6%nat.
Proof.
  split; [|split; [repeat split; simpl; lia|]].
  - intros nd [<-|[<-|[]]]; (split; [split; [|simpl; lia] | discriminate]);
    unfold exact_clock; simpl; repeat constructor.
  - eexists. split; vm_compute; reflexivity.
Qed.

(** ** C02 *)
Theorem C02_broadcast_before_update tsort up bc fuse re tr os isseq first mf sched i :
  is_argsort tsort -> ~ tree_mode up fuse ->
  build_events_matrix tsort up bc fuse re tr os isseq first mf = Ok sched ->
  In i sched -> StronglySorted fc_before (in_evs i).
Proof. exact (fc_order_in_schedule tsort up bc fuse re tr os isseq first mf sched i). Qed.

(** ** C03 *)
Theorem C03_tree_order tsort up bc fuse re tr os isseq first mf sched :
  is_argsort tsort -> tree_mode up fuse -> length tr = length up ->
  (forall o, In o os -> NoDup (concat o)) ->
  build_events_matrix tsort up bc fuse re tr os isseq first mf = Ok sched ->
  forall i, In i sched -> (1 <= formed_until tr (in_t i))%nat ->
  exists o, nth_error os (formed_until tr (in_t i) - 1) = Some o /\
            StronglySorted (ti_before o) (in_evs i).
Proof.
  exact (fun Hs Ht => tree_in_force_build tsort up bc fuse re tr os isseq first mf sched Hs
                        (proj2 (ti_flag_true up fuse) Ht)).
Qed.

Example C03_example :
  build_events_matrix tsort0 [[4]; [4]; [4]] [[4]; [4]; [4]] [[4]; [4]; [4]] [[4]; [4]; [4]]
    [[]; [0]; []] [[[0; 2]; [1]]]%nat true 1 0
  = Ok [mkInst 0 [(1%nat, Tr)] [false];
        mkInst 4 [(0%nat, Fu); (2%nat, Fu); (1%nat, Fu); (0%nat, Bc); (2%nat, Bc); (1%nat, Bc);
                  (1%nat, Re); (0%nat, Re); (2%nat, Re); (1%nat, Up); (0%nat, Up); (2%nat, Up)]
                 [false; false; false; false; false; false; false; false; false; false; true; true]].
Proof. reflexivity. Qed.

(** ** C04 *)
Theorem C04_tree_schedule_exact tsort up bc fuse re tr os isseq first mf sched :
  is_argsort tsort -> tree_mode up fuse ->
  (forall o, In o os -> full_ordering (length up) o) ->
  build_events_matrix tsort up bc fuse re tr os isseq first mf = Ok sched ->
  exact_schedule true up bc fuse re tr sched.
Proof.
  intros Hs Ht Ho H.
  exact (eq_rect _ (fun b => exact_schedule b up bc fuse re tr sched)
    (exact_schedule_build tsort up bc fuse re tr os isseq first mf sched Hs (fun _ => Ho) H)
    _ (proj2 (ti_flag_true up fuse) Ht)).
Qed.

Theorem C04_sorting_keeps_events evs o :
  NoDup (concat o) -> (forall e, In e evs -> In (fst e) (concat o)) ->
  Permutation (sort_simultaneous_events evs true o) evs.
Proof. exact (fun H1 H2 => ti_sort_perm evs o (conj H1 H2)). Qed.

Theorem C04_missing_node_dropped evs o k ty :
  ~ In k (concat o) -> ~ In (k, ty) (sort_simultaneous_events evs true o).
Proof. exact (missing_dropped evs o k ty). Qed.

Example C04_missing_example :
  sort_simultaneous_events [(0%nat, Up); (1%nat, Up)] true [[0%nat]] = [(0%nat, Up)].
Proof. reflexivity. Qed.

(** ** C05 *)
Theorem C05_round_robin tsort up bc fuse re tr os first mf sched :
  is_argsort tsort -> full_if_tree up fuse os ->
  build_events_matrix tsort up bc fuse re tr os true first mf = Ok sched ->
  updates sched = map (fun i => (first + i) mod length up)%nat (seq 0 (length (updates sched))) /\
  (forall i, In i sched -> (length (performed i) <= 1)%nat).
Proof.
  exact (fun Hs Ho H => entry_round_robin tsort up bc fuse re tr os true first mf sched Hs Ho H eq_refl).
Qed.

(** No opportunity is missed: the node whose turn it is updates at the first
    instant at which it has an update event and the minimum distance is kept. *)
Theorem C05_no_opportunity_missed tsort up bc fuse re tr os first mf sched pre i post :
  is_argsort tsort -> full_if_tree up fuse os ->
  build_events_matrix tsort up bc fuse re tr os true first mf = Ok sched ->
  sched = pre ++ i :: post ->
  forall k, In k (performed i) <->
    In (k, Up) (in_evs i) /\ mf <= idle (rev pre) + 1 /\ k = ((first + length (updates pre)) mod length up)%nat.
Proof.
  intros Hs Ho H E k.
  rewrite (entry_no_skip tsort up bc fuse re tr os true first mf sched Hs Ho H pre i post E k).
  split; intros [A [B C]]; (split; [exact A | split; [exact B | auto]]).
Qed.

Example C05_example :
  exists s, build_events_matrix tsort0 [[2; 4; 6; 8]; [2; 4; 6; 8]; [3; 5]] [[]; []; []] [] [] [] [] true 1 0 = Ok s /\
            timed_updates s = [(2, 1%nat); (3, 2%nat); (4, 0%nat); (6, 1%nat)].
Proof. eexists. split; vm_compute; reflexivity. Qed.

(** ** C06 *)
Theorem C06_spacing tsort up bc fuse re tr os isseq first mf sched :
  is_argsort tsort -> full_if_tree up fuse os ->
  build_events_matrix tsort up bc fuse re tr os isseq first mf = Ok sched ->
  (forall a x b y c, sched = a ++ x :: b ++ y :: c -> performed x <> [] -> performed y <> [] ->
     mf - 1 <= count_up b) /\
  (forall a y c, sched = a ++ y :: c -> performed y <> [] -> mf - 1 <= count_up a).
Proof.
  intros Hs Ho H. split.
  - intros a x b y c E Hx Hy.
    exact (proj2 (Z.le_sub_le_add_r _ _ _) (entry_spacing _ _ _ _ _ _ _ _ _ _ _ Hs Ho H a x b y c E Hx Hy)).
  - intros a y c E Hy.
    exact (proj2 (Z.le_sub_le_add_r _ _ _) (entry_first _ _ _ _ _ _ _ _ _ _ _ Hs Ho H a y c E Hy)).
Qed.

Theorem C06_exact_when_not_sequential tsort up bc fuse re tr os first mf sched pre i post :
  is_argsort tsort -> full_if_tree up fuse os ->
  build_events_matrix tsort up bc fuse re tr os false first mf = Ok sched ->
  sched = pre ++ i :: post ->
  (performed i <> [] <-> carries_up i = true /\ count_up (pre ++ [i]) mod (Z.max 1 mf) = 0) /\
  (performed i <> [] -> forall k, In k (performed i) <-> In (k, Up) (in_evs i)).
Proof.
  exact (fun Hs Ho H E => entry_every tsort up bc fuse re tr os false first mf sched Hs Ho H pre i post eq_refl E).
Qed.

Example C06_example :
  exists s, build_events_matrix tsort0 [[2; 4; 6; 8; 10; 12]; [2; 4; 6; 8; 10; 12]] [[]; []] [] [] [] [] false 1 3 = Ok s /\
            timed_updates s = [(6, 0%nat); (6, 1%nat); (12, 0%nat); (12, 1%nat)].
Proof. eexists. split; vm_compute; reflexivity. Qed.

(** ** C07 *)
Theorem C07_root_is_updating_node tsort p nodes ordering_of sched trees :
  is_argsort tsort -> good_params p ->
  (forall nd, In nd nodes -> good_node nd) ->
  (p_start p < length nodes)%nat ->
  (forall k, full_ordering (length nodes) (ordering_of k)) ->
  p_ti p = true -> p_seq p = true -> p_keepTree p = false -> p_every p <= 1 ->
  initialize_events tsort p nodes ordering_of = Ok (sched, trees) ->
  (exists t k, scheduled sched t k Fu) ->
  (length trees <= length (timed_updates sched))%nat /\
  forall i t k, (i < length trees)%nat -> nth_error (timed_updates sched) i = Some (t, k) ->
    trees_formed sched t = S i /\ nth_error trees i = Some k.
Proof. exact (tree_root_lemma tsort p nodes ordering_of sched trees). Qed.

Definition ex_ti (every : Z) : sparams := mkP 4 2 2 true false true true false 1 every.
Definition ex_ti_nodes : list snode :=
  [mkNode 10 (exact_clock 10 22) [1%nat]; mkNode 10 (exact_clock 10 22) [0%nat; 2%nat];
   mkNode 10 (exact_clock 10 22) [1%nat]].
Definition ex_ord (k : nat) : ordering :=
  match k with 0 => [[2]; [1]; [0]] | 1 => [[0; 2]; [1]] | _ => [[0]; [1]; [2]] end%nat.

Example C07_example :
  exists s trees, initialize_events tsort0 (ex_ti 0) ex_ti_nodes ex_ord = Ok (s, trees) /\
    trees = [1; 2; 0; 1; 2; 0]%nat /\
    timed_updates s = [(80, 1%nat); (100, 2%nat); (120, 0%nat); (140, 1%nat); (160, 2%nat); (180, 0%nat)] /\
    existsb (fun i => existsb (fun e => evtype_eqb (snd e) Fu) (in_evs i)) s = true.
Proof. eexists. eexists. split; [|split; [|split]]; vm_compute; reflexivity. Qed.

(** With [updateEvery = 2] the tree is re-rooted at every update event while
    updates happen at every second one: the second update is performed with a
    tree rooted at another node. *)
Theorem C07_update_every_2_refuted :
  exists p nodes ordering_of sched trees t k tree,
    p_every p = 2 /\ p_ti p = true /\ p_seq p = true /\ p_keepTree p = false /\ good_params p /\
    (forall j, (j < 3)%nat -> full_ordering 3 (ordering_of j)) /\
    initialize_events tsort0 p nodes ordering_of = Ok (sched, trees) /\
    nth_error (timed_updates sched) 0 = Some (t, k) /\
    nth_error trees (trees_formed sched t - 1) = Some tree /\ tree <> k.
Proof.
  exists (ex_ti 2), ex_ti_nodes, ex_ord. do 5 eexists.
  split; [reflexivity|]. split; [reflexivity|]. split; [reflexivity|]. split; [reflexivity|].
  split; [repeat split; simpl; lia|]. split.
  - intros j Hj. unfold full_ordering. destruct j as [|[|[|j]]]; [| | |lia]; simpl.
    + apply Permutation_sym. apply (Permutation_rev [0; 1; 2]%nat).
    + apply perm_skip. apply perm_swap.
    + apply Permutation_refl.
  - split; [vm_compute; reflexivity|]. split; [vm_compute; reflexivity|]. split; [vm_compute; reflexivity|].
    vm_compute. discriminate.
Qed.

(** ** C08 *)
Theorem C08_sequential_instants up start :
  (start < length up)%nat ->
  (forall l, In l up -> l <> [] /\ StronglySorted Z.le l) ->
  exists ts ix,
    get_sequential_update_instants up start = Ok (ts, ix) /\
    StronglySorted Z.lt (0 :: ts) /\
    (forall i t, nth_error ts i = Some t ->
       exists l, nth_error up ((start + i) mod length up)%nat = Some l /\
                 earliest_after l (last (firstn i ts) 0) t) /\
    ix = map (fun i => (start + i) mod length up)%nat (seq 0 (length ix)) /\
    (length ix = length ts \/ length ix = S (length ts)) /\
    (forall M, 0 < M -> (forall l, In l up -> largest l M) -> length ix = length ts).
Proof. exact (seq_up_full up start). Qed.

Theorem C08_always_terminates up start : get_sequential_update_instants up start <> Err OutOfFuel.
Proof. exact (seq_up_terminates up start). Qed.

Example C08_example :
  get_sequential_update_instants [[4; 8; 12]; [5; 9; 12]] 1 = Ok ([5; 8; 9; 12], [1; 0; 1; 0]%nat).
Proof. reflexivity. Qed.

(** With different last instants the two lists have different lengths and the
    scheduler fails. *)
Theorem C08_unequal_lengths_refuted :
  exists p nodes ordering_of,
    good_params p /\ (forall nd, In nd nodes -> good_node nd) /\ (p_start p < length nodes)%nat /\
    p_ti p = true /\ p_seq p = true /\ p_keepTree p = false /\
    initialize_events tsort0 p nodes ordering_of = Err IndexError.
Proof.
  exists (mkP 2 1 1 true false true true false 0 0),
    [mkNode 10 (exact_clock 10 10) [1%nat]; mkNode 6 (exact_clock 6 10) [0%nat]], (fun k => [[1 - k]; [k]]%nat).
  split; [repeat split; simpl; lia|]. split.
  - intros nd [<-|[<-|[]]]; (split; [|simpl; lia]); unfold exact_clock; simpl; repeat constructor.
  - split; [simpl; lia|]. repeat split; vm_compute; reflexivity.
Qed.

(** ** C09 *)
Theorem C09_on_sample_grid nd s0 sep n :
  StronglySorted Z.lt (stamps nd) -> stamps nd <> [] -> 0 < sep ->
  exists noms l,
    progression s0 sep (n * sep) noms /\ aligned_of nd s0 sep n = Ok l /\
    Forall2 (fun s t => In t (stamps nd) /\
      ((exists u, In u (stamps nd) /\ s * period nd <= u) -> next_sample (stamps nd) (s * period nd) t) /\
      ((forall u, In u (stamps nd) -> u < s * period nd) -> largest (stamps nd) t)) noms l.
Proof. exact (aligned_of_full nd s0 sep n). Qed.

Example C09_example :
  aligned_of (mkNode 10 [0; 11; 19; 31; 40] []) 1 1 6 = Ok [11; 31; 31; 40; 40].
Proof. reflexivity. Qed.

(** ** C10 *)
Theorem C10_efficient_broadcast_instants nd L up :
  StronglySorted Z.lt (stamps nd) -> (0 < L < length (stamps nd))%nat ->
  (forall q, In q (nbrs nd) -> (q < length up)%nat) ->
  exists u l,
    efficient_bc nd L up = Ok l /\
    StronglySorted Z.lt u /\
    (forall x, In x u <-> exists q lq, In q (nbrs nd) /\ nth_error up q = Some lq /\ In x lq) /\
    Forall2 (fun x t => block_instant L (stamps nd) t /\
      ((exists b, block_instant L (stamps nd) b /\ b <= x) ->
         t <= x /\ forall b, block_instant L (stamps nd) b -> b <= x -> b <= t) /\
      ((forall b, block_instant L (stamps nd) b -> x < b) ->
         forall b, block_instant L (stamps nd) b -> t <= b)) u l.
Proof. exact (efficient_bc_full nd L up). Qed.

Example C10_example :
  efficient_bc (mkNode 10 (exact_clock 10 12) [1; 2]%nat) 3 [[999]; [61; 28]; [90; 61]] = Ok [30; 60; 90].
Proof. reflexivity. Qed.

(** ** C11 *)
Theorem C11_iterations_suffice p nd Nt l :
  good_params p -> 0 < period nd -> (0 < Nt)%nat -> stamps nd = exact_clock (period nd) Nt ->
  up_of p nd = Ok l ->
  Z.of_nat (length l) <= Z.max 0 (alloc_iters (Z.of_nat Nt) (p_N p) (p_Ns p)).
Proof. exact (iterations_suffice p nd Nt l). Qed.

Example C11_example :
  up_of ex_params (mkNode 10 (exact_clock 10 12) []) = Ok [40; 60; 80] /\ alloc_iters 12 4 2 = 5.
Proof. split; reflexivity. Qed.

Print Assumptions C01_schedule_exact.
Print Assumptions C01_run_schedule_exact.
Print Assumptions C02_broadcast_before_update.
Print Assumptions C03_tree_order.
Print Assumptions C04_tree_schedule_exact.
Print Assumptions C04_sorting_keeps_events.
Print Assumptions C04_missing_node_dropped.
Print Assumptions C05_round_robin.
Print Assumptions C05_no_opportunity_missed.
Print Assumptions C06_spacing.
Print Assumptions C06_exact_when_not_sequential.
Print Assumptions C07_root_is_updating_node.
Print Assumptions C07_update_every_2_refuted.
Print Assumptions C08_sequential_instants.
Print Assumptions C08_always_terminates.
Print Assumptions C08_unequal_lengths_refuted.
Print Assumptions C09_on_sample_grid.
Print Assumptions C10_efficient_broadcast_instants.
Print Assumptions C11_iterations_suffice.
