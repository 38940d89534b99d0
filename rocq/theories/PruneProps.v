(** C75: pruning of a network to a tree, and runs over the trees pruned. *)
From Verif Require Import Base BaseFacts Sched SchedSpec InstSpec Buffers Tree TreeSpec TreeCheck Cx Scm ScmSpec Dist Online Filt Ext Full InNet InNetSpec
  TiRun TiSpec TiProps TiSched TiSchedSpec TiSchedProps Prune PruneSpec PruneFacts3 PruneFacts4.
From Coq Require Import Reals Lra.
Local Open Scope nat_scope.

(** A connected network whose linked nodes are at different places is pruned to a tree over
    all its nodes, made of links of the network; the tree is the same one whatever the root.
    The root asked for is the root, the other nodes are leaves exactly if they have one
    neighbour left, and the tree is oriented towards the root. *)
Theorem C75_spanning_tree n A pos order root :
  connected n A -> places n A pos -> Permutation order (seq 0 n) -> root < n ->
  exists pr, prune n A (Some pos) order root = Ok pr /\ is_tree n (pr_nbrs pr) /\
    orientate (pr_nbrs pr) root = Ok (pr_orient pr, pr_order pr) /\
    (forall k q, k < n -> In q (nth k (pr_nbrs pr) []) -> A k q = true \/ A q k = true) /\
    (forall k, k < n -> exists t, nth_error (pr_types pr) k = Some t /\
       (t = Root <-> k = root) /\ (t = Leaf <-> k <> root /\ exists q, nth k (pr_nbrs pr) [] = [q])) /\
    (forall root', root' < n -> exists pr', prune n A (Some pos) order root' = Ok pr' /\ pr_nbrs pr' = pr_nbrs pr).
Proof.
  intros HC HPl HP Hr. destruct (prune_ok n A pos order HC HP ltac:(lia) root HPl Hr) as (pr & P & T & O & S & Ty & _ & SR).
  exists pr. split; [exact P|]. split; [exact T|]. split; [exact O|]. split; [exact S|]. split; [|exact SR].
  intros k Hk. eexists. split; [exact (Ty k Hk)|]. destruct (Nat.eqb_spec k root) as [E|E]; [split; split; try tauto; try discriminate|].
  destruct (nth k (pr_nbrs pr) []) as [|q [|q' l]]; cbn; (split; split; try tauto; try discriminate).
  - intros (_ & q & ?). discriminate.
  - intros _. split; [exact E|]. now exists q.
  - intros (_ & q2 & ?). discriminate.
Qed.

(** Unless all the nodes are at the same place, no links of the network that connect all the
    nodes are shorter in total than those kept. *)
Theorem C75_minimum n A pos order root L :
  connected n A -> places n A pos -> Permutation order (seq 0 n) -> root < n -> all_same_position pos = false ->
  allowed n A L -> connects n L ->
  exists pr, prune n A (Some pos) order root = Ok pr /\ (total pos (links (pr_nbrs pr)) <= total pos L)%R.
Proof.
  intros HC HPl HP Hr HS HL HJ. destruct (prune_ok n A pos order HC HP ltac:(lia) root HPl Hr) as (pr & P & _ & _ & _ & _ & M & _).
  exists pr. split; [exact P|]. now apply M.
Qed.

(** Two linked nodes at the same place (while not all the nodes are) always break the network
    apart, however well it is connected: two nodes are left without any path between them. *)
Theorem C75_colocated_refuted n A pos order root pr x y :
  connected n A -> Permutation order (seq 0 n) -> all_same_position pos = false ->
  x < n -> y < n -> x <> y -> A x y = true -> nth x pos [] = nth y pos [] ->
  prune n A (Some pos) order root = Ok pr ->
  exists a b, a < n /\ b < n /\ forall p, ~ walk (pr_nbrs pr) a b p.
Proof.
  intros HC HP HS Hx Hy Hne HA HE H. destruct (colocated n A pos order HC HP ltac:(lia) x y HS Hx Hy Hne HA HE) as (es & a & b & E & Ha & Hb & W).
  exists a, b. split; [exact Ha|]. split; [exact Hb|]. unfold prune in H. cbv zeta in H. rewrite E in H. cbn [bind] in H.
  apply bind_ok in H. destruct H as (? & _ & H). apply bind_ok in H. destruct H as (so & _ & H). injection H as <-. exact W.
Qed.

(** The nodes count as being at the same place exactly if none of their coordinates differs
    from the first node's by more than 1e-8 plus 1e-5 of its own size. *)
Theorem C75_same_place d p0 ps : (forall p, In p (p0 :: ps) -> length p = d) ->
  all_same_position (p0 :: ps) = true <->
  forall p i, In p (p0 :: ps) -> i < d -> (Rabs (nth i p0 0 - nth i p 0) <= / 10 ^ 8 + / 10 ^ 5 * Rabs (nth i p 0))%R.
Proof.
  intros Hd. unfold all_same_position. rewrite forallb_forall. cbn [nth]. assert (L0 : length p0 = d) by (apply Hd; left; reflexivity). split.
  - intros H p i Hp Hi. specialize (H p Hp). unfold allclose in H. rewrite forallb_forall in H. specialize (H (nth i p0 0%R, nth i p 0%R)).
    rewrite <- combine_nth in H by (rewrite (Hd p Hp); exact L0). assert (Hi2 : i < length (combine p0 p)) by (rewrite combine_length, L0, (Hd p Hp), Nat.min_id; exact Hi). specialize (H (nth_In (combine p0 p) (0%R, 0%R) Hi2)).
    rewrite combine_nth in H by (rewrite (Hd p Hp); exact L0). cbn [fst snd] in H. unfold close in H. destruct (Rle_dec _ _) as [C|]; [exact C | discriminate].
  - intros H p Hp. unfold allclose. rewrite forallb_forall. intros q Hq. destruct (In_nth _ _ (0%R, 0%R) Hq) as (i & Hi & <-). rewrite combine_length, L0, (Hd p Hp), Nat.min_id in Hi.
    rewrite combine_nth by (rewrite (Hd p Hp); exact L0). cbn [fst snd]. unfold close. specialize (H p i Hp Hi). destruct (Rle_dec _ _); [reflexivity | contradiction].
Qed.

(** Nodes without positions (any scenario that is not a simulated room) cannot be pruned. *)
Theorem C75_without_positions_refuted n A order root : prune n A None order root = Err TypeError.
Proof. reflexivity. Qed.

(** Runs of TI-DANSE with the trees pruned from a network do not depend on the network: over
    any two connected networks, with whatever positions and whatever order Python goes
    through the nodes, the nodes end up with the same filters, outputs and fused signals, or
    both runs fail. *)
Theorem C75_network_independent c y per T R tsort tsort' A A' pos pos' order order' nodes :
  common_clock (o_p (tc_o c)) (o_nodes (tc_o c)) per T R -> first_update (o_p (tc_o c)) R < hops (o_p (tc_o c)) T ->
  is_argsort tsort -> is_argsort tsort' -> length nodes = length (o_nodes (tc_o c)) ->
  (forall yk col, In yk y -> In col yk -> length col = T) ->
  connected (length nodes) A -> places (length nodes) A pos -> Permutation order (seq 0 (length nodes)) ->
  connected (length nodes) A' -> places (length nodes) A' pos' -> Permutation order' (seq 0 (length nodes)) ->
  (exists s s', ti_network_danse tsort c y A (Some pos) order nodes = Ok s /\ ti_network_danse tsort' c y A' (Some pos') order' nodes = Ok s' /\
     ts_nodes s = ts_nodes s' /\ zpb (ts_net s) = zpb (ts_net s')) \/
  (exists e e', ti_network_danse tsort c y A (Some pos) order nodes = Err e /\ ti_network_danse tsort' c y A' (Some pos') order' nodes = Err e').
Proof.
  intros HC HU Ht Ht' Hl HY C1 P1 O1 C2 P2 O2. assert (Hn : 0 < length nodes) by (pose proof (cc_start _ _ _ _ _ HC); lia).
  destruct (network_trees _ A pos order C1 O1 Hn P1) as (prs & E & TO). destruct (network_trees _ A' pos' order' C2 O2 Hn P2) as (prs' & E' & TO').
  unfold ti_network_danse. rewrite E, E'. cbn [bind]. cbv zeta in *. exact (C74_topology_independent c y per T R tsort tsort' _ _ _ _ _ _ nodes HC HU Ht Ht' Hl HY TO TO').
Qed.

(** Such runs complete over every connected network. *)
Theorem C75_completes c y per q T slots tsort A pos order nodes :
  settings c y q T slots -> common_clock (o_p (tc_o c)) (o_nodes (tc_o c)) per T 2 -> 4 < hops (o_p (tc_o c)) T ->
  is_argsort tsort -> length nodes = length y -> connected (length nodes) A -> places (length nodes) A pos -> Permutation order (seq 0 (length nodes)) ->
  (alloc_iters (Z.of_nat T) (p_N (o_p (tc_o c))) (p_Ns (o_p (tc_o c))) < Z.of_nat slots)%Z ->
  (forall k nd, nth_error nodes k = Some nd -> ready c y T slots k nd /\ fn_i (tn_f nd) = 0) -> 0 < length nodes ->
  exists s, ti_network_danse tsort c y A (Some pos) order nodes = Ok s.
Proof.
  intros HS HC HU Ht Hl C1 P1 O1 HA HR Hn. destruct (network_trees _ A pos order C1 O1 Hn P1) as (prs & E & TO).
  unfold ti_network_danse. rewrite E. cbn [bind]. cbv zeta in *. exact (C74_completes c y per q T slots tsort _ _ _ nodes HS HC HU Ht Hl TO HA HR).
Qed.

(** ** Three fully connected nodes on a line, at 0, 1 and 3 *)
Definition c75_line : list (list R) := [[0; 0; 0]; [1; 0; 0]; [3; 0; 0]]%R.
Definition c75_full : nat -> nat -> bool := fun _ _ => true.
Lemma c75_apart p q : (p <= 1)%R -> (q = 3 \/ q = 1)%R -> (p < q)%R -> (q - p >= 1)%R -> all_same_position [[0; 0; 0]; [p; 0; 0]; [q; 0; 0]]%R = false.
Proof.
  intros Hp Hq Hl Hd. unfold all_same_position. cbn [nth forallb]. apply andb_false_iff. right. apply andb_false_iff. right. apply andb_false_iff. left.
  unfold allclose. cbn [combine forallb fst snd]. apply andb_false_iff. left. unfold close. destruct (Rle_dec _ _) as [H|H]; [exfalso|reflexivity].
  assert (E : Rabs q = q) by (apply Rabs_right; destruct Hq; lra). rewrite Rminus_0_l, Rabs_Ropp, E in H. destruct Hq as [-> | -> ]; lra.
Qed.
Lemma c75_connected : connected 3 c75_full.
Proof.
  exists [(0, 1); (1, 2)]. split.
  - intros x y [E|[E|[]]]; injection E as <- <-; (split; [lia|]); (split; [lia|left; reflexivity]).
  - intros r x Hr Hx. destruct r as [|[|[|r]]], x as [|[|[|x]]]; try lia; try (apply j_in; now left).
    1: apply j_step with 0; [cbn; auto|apply j_in; now left].
    1: apply j_step with 1; [cbn; auto|apply j_step with 0; [cbn; auto|apply j_in; now left]].
    1: apply j_step with 1; [cbn; auto|apply j_in; now left].
    1: apply j_step with 1; [cbn; auto|apply j_in; now left].
    1: apply j_step with 1; [cbn; auto|apply j_step with 2; [cbn; auto|apply j_in; now left]].
    1: apply j_step with 2; [cbn; auto|apply j_in; now left].
Qed.
Lemma c75_places : places 3 c75_full c75_line.
Proof.
  right. intros i j Hi Hj Hne _. destruct i as [|[|[|i]]], j as [|[|[|j]]]; try lia; cbn; (split; [reflexivity|]); intros E; injection E as E; lra.
Qed.
Example C75_ex_tree : exists pr, prune 3 c75_full (Some c75_line) [2; 0; 1] 2 = Ok pr /\ is_tree 3 (pr_nbrs pr) /\ nth_error (pr_types pr) 2 = Some Root.
Proof.
  assert (P : Permutation [2; 0; 1] (seq 0 3)) by (apply perm_trans with [0; 2; 1]; [apply perm_swap|apply perm_skip, perm_swap]).
  destruct (C75_spanning_tree 3 c75_full c75_line [2; 0; 1] 2 c75_connected c75_places P ltac:(lia)) as (pr & E & T & _ & _ & Ty & _).
  exists pr. split; [exact E|]. split; [exact T|]. destruct (Ty 2 ltac:(lia)) as (t & Et & [_ Hr] & _). now rewrite Et, Hr.
Qed.
(** The links kept are 3 long in total (the direct link from 0 to 2 is left out). *)
Example C75_ex_minimum : exists pr, prune 3 c75_full (Some c75_line) [0; 1; 2] 0 = Ok pr /\ (total c75_line (links (pr_nbrs pr)) <= 3)%R.
Proof.
  destruct (C75_minimum 3 c75_full c75_line [0; 1; 2] 0 [(0, 1); (1, 2)] c75_connected c75_places (Permutation_refl _) ltac:(lia)) as (pr & E & M).
  - apply c75_apart; lra.
  - intros x y [E|[E|[]]]; injection E as <- <-; (split; [lia|]); (split; [lia|left; reflexivity]).
  - destruct c75_connected as (_ & _). intros r x Hr Hx. destruct r as [|[|[|r]]], x as [|[|[|x]]]; try lia; try (apply j_in; now left).
    1: apply j_step with 0; [cbn; auto|apply j_in; now left].
    1: apply j_step with 1; [cbn; auto|apply j_step with 0; [cbn; auto|apply j_in; now left]].
    1: apply j_step with 1; [cbn; auto|apply j_in; now left].
    1: apply j_step with 1; [cbn; auto|apply j_in; now left].
    1: apply j_step with 1; [cbn; auto|apply j_step with 2; [cbn; auto|apply j_in; now left]].
    1: apply j_step with 2; [cbn; auto|apply j_in; now left].
  - exists pr. split; [exact E|]. eapply Rle_trans; [exact M|]. unfold total, euclid. cbn [map combine fold_right nth fst snd c75_line].
    replace ((0 - 1) * (0 - 1) + ((0 - 0) * (0 - 0) + ((0 - 0) * (0 - 0) + 0)))%R with (1 * 1)%R by ring.
    replace ((1 - 3) * (1 - 3) + ((0 - 0) * (0 - 0) + ((0 - 0) * (0 - 0) + 0)))%R with (2 * 2)%R by ring. rewrite !sqrt_square by lra. lra.
Qed.
(** Nodes 0 and 1 at the same place, 2 elsewhere, fully connected: node 1 loses all its links
    and is missing from the order of the nodes, so that its events are dropped (C04). *)
Example C75_ex_colocated : exists pr, prune 3 c75_full (Some [[0; 0; 0]; [0; 0; 0]; [1; 0; 0]]%R) [0; 1; 2] 0 = Ok pr /\
  pr_nbrs pr = [[2]; []; [0]] /\ ~ In 1 (concat (pr_order pr)) /\
  forall evs ty, ~ In (1, ty) (sort_simultaneous_events evs true (pr_order pr)).
Proof.
  set (pos := [[0; 0; 0]; [0; 0; 0]; [1; 0; 0]]%R).
  assert (S : all_same_position pos = false) by (apply c75_apart; lra).
  assert (V : forall i j, link_weight pos i j = euclid (nth i pos []) (nth j pos [])) by (intros i j; unfold link_weight; now rewrite S).
  assert (U : sqrt 1 = 1%R) by apply sqrt_1. assert (Z0 : sqrt 0 = 0%R) by apply sqrt_0.
  assert (W : forall i j v, fold_right Rplus 0%R (map (fun p => ((fst p - snd p) * (fst p - snd p))%R) (combine (nth i pos []) (nth j pos []))) = v -> link_weight pos i j = sqrt v).
  { intros i j v H. rewrite V. unfold euclid. now rewrite H. }
  assert (E : spanning_edges 3 c75_full (link_weight pos) [0; 1; 2] = Ok [(0, 2); (0, 1)]).
  { apply (forced_tree _ (sqrt 1)); try (rewrite <- Z0); try (apply W; cbn [pos nth combine map fold_right fst snd]; ring). rewrite U. lra. }
  assert (Nb : pruned_neighbours 3 (link_weight pos) [(0, 2); (0, 1)] = [[2]; []; [0]]).
  { apply (forced_nbrs _ (sqrt 1)); try (rewrite <- Z0); try (apply W; cbn [pos nth combine map fold_right fst snd]; ring). rewrite U. lra. }
  unfold prune. cbv zeta. rewrite E. cbn [bind]. rewrite Nb. eexists. split; [reflexivity|]. split; [reflexivity|].
  assert (M : ~ In 1 (concat [[2]; [0]])) by (intros [H|[H|[]]]; discriminate).
  split; [exact M|]. intros evs ty. apply SchedProps.C04_missing_node_dropped. exact M.
Qed.
(** Two networks for the run of C74: the line, and the three nodes at one place *)
Example C75_ex_completes :
  (exists s, ti_network_danse c74_sort c74_cfg c73_y c75_full (Some c75_line) [0; 1; 2] (repeat c74_node 3) = Ok s) /\
  (exists s, ti_network_danse c74_sort c74_cfg c73_y c75_full (Some (repeat [0; 0; 0]%R 3)) [2; 1; 0] (repeat c74_node 3) = Ok s).
Proof.
  assert (G : forall k nd, nth_error (repeat c74_node 3) k = Some nd -> ready c74_cfg c73_y 6 6 k nd /\ fn_i (tn_f nd) = 0).
  { intros k nd H. assert (k < 3) by (change 3 with (length (repeat c74_node 3)); apply nth_error_Some; congruence).
    apply nth_error_In, repeat_spec in H. subst nd. split; [now apply c74_ready|reflexivity]. }
  split.
  - exact (C75_completes c74_cfg c73_y 1 1 6 6 c74_sort c75_full c75_line [0; 1; 2] (repeat c74_node 3) c74_settings c74_clock c74_long c74_argsort eq_refl c75_connected c75_places (Permutation_refl _) c74_alloc G ltac:(cbn; lia)).
  - assert (P : Permutation [2; 1; 0] (seq 0 3)) by (apply Permutation_sym; exact (Permutation_rev [0; 1; 2])).
    assert (PL : places 3 c75_full (repeat [0; 0; 0]%R 3)).
    { left. unfold all_same_position, allclose, close. cbn [nth repeat forallb combine fst snd]. rewrite Rminus_0_r, Rabs_R0. destruct (Rle_dec _ _) as [|H]; [reflexivity|]. exfalso. apply H. lra. }
    exact (C75_completes c74_cfg c73_y 1 1 6 6 c74_sort c75_full (repeat [0; 0; 0]%R 3) [2; 1; 0] (repeat c74_node 3) c74_settings c74_clock c74_long c74_argsort eq_refl c75_connected PL P c74_alloc G ltac:(cbn; lia)).
Qed.

Print Assumptions C75_spanning_tree.
Print Assumptions C75_minimum.
Print Assumptions C75_colocated_refuted.
Print Assumptions C75_same_place.
Print Assumptions C75_without_positions_refuted.
Print Assumptions C75_network_independent.
Print Assumptions C75_completes.
