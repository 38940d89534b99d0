(** C22-C24: orientation of trees, leaf-to-root ordering, in-network sum. *)
From Verif Require Import Base BaseFacts Sched SchedSpec ChunkSpec Tree TreeSpec TreeFacts TreeFacts2 TreeCheck
  InNet InNetSpec InNetFacts3 InNetFacts4.
From Coq Require Import Reals Lra.
Open Scope nat_scope.

(** Five nodes: 0-1, 1-2, 1-3, 3-4. *)
Definition ex_nbrs : list (list nat) := [[1]; [3; 0; 2]; [1]; [1; 4]; [3]].
Lemma ex_tree : is_tree 5 ex_nbrs.
Proof. apply (tree_check_ok ex_nbrs). vm_compute. reflexivity. Qed.

(** ** C23 *)

(** The orientation ends (or raises for a node index out of range) on every
    list of neighbours, tree or not. *)
Theorem C23_terminates nbrs r : orientate nbrs r <> Err OutOfFuel.
Proof. exact (orientate_terminates nbrs r). Qed.

Theorem C23_orientation n nbrs r : is_tree n nbrs -> r < n ->
  exists st o, orientate nbrs r = Ok (st, o) /\ length (o_up st) = n /\ length (o_down st) = n /\
    nth r (o_down st) [] = [] /\ nth r (o_up st) [] = nth r nbrs [] /\
    forall k, k < n -> k <> r ->
      exists q, next_hop nbrs r k q /\ nth k (o_down st) [] = [q] /\
        NoDup (nth k (o_up st) []) /\
        (forall x, In x (nth k (o_up st) []) <-> In x (nth k nbrs []) /\ x <> q).
Proof. exact (orientation_spec n nbrs r). Qed.

Example C23_example : is_tree 5 ex_nbrs /\
  orientate ex_nbrs 3 = Ok (mkO [[]; [0; 2]; []; [1; 4]; []] [[1]; [3]; [1]; []; [3]], [[0; 2]; [1; 4]; [3]]).
Proof. split; [exact ex_tree | reflexivity]. Qed.

(** ** C24 *)
Theorem C24_leaf_to_root n nbrs r st o : is_tree n nbrs -> r < n -> orientate nbrs r = Ok (st, o) ->
  full_ordering n o /\
  (exists o', o = o' ++ [[r]]) /\
  (forall l, In l o -> l <> []) /\
  (forall k j, at_level o k j -> distance nbrs r k (length o - 1 - j)) /\
  (forall k j q i, at_level o k j -> In q (nth k (o_down st) []) -> at_level o q i -> j < i).
Proof. exact (ordering_spec n nbrs r st o). Qed.

(** ** C22 *)

(** At every instant at which all nodes fuse, send their partial sums and relay
    the sum, in the order of the schedule (C03), whatever the signals so far:
    every node ends up with the sum of the current fused frames of all nodes,
    and with the sum of those of all other nodes.  The state reached is again
    one to which the theorem applies. *)
Theorem C22_in_network_sum n N Ns nbrs r st o trees fz new evs s :
  is_tree n nbrs -> r < n -> orientate nbrs r = Ok (st, o) ->
  0 < Ns < N -> well_shaped n N s -> in_use trees s evs (o_up st, r) ->
  (forall k, k < n -> fz k = Some (new k) /\ Ns <= length (new k)) ->
  StronglySorted (ti_before o) evs -> NoDup evs ->
  (forall k, k < n -> In (k, Fu) evs /\ In (k, Bc) evs /\ In (k, Re) evs) ->
  (forall e, In e evs -> fst e < n) ->
  exists s', ti_instant N Ns trees fz evs s = Ok s' /\ well_shaped n N s' /\ cur s' = Some (o_up st, r) /\
    forall k, k < n ->
      let z q := shifted_frame N Ns (nth q (zp s) []) (new q) in
      nth k (zp s') [] = z k /\
      length (nth k (eta s') []) = N /\ length (nth k (etamk s') []) = N /\
      forall i, i < N ->
        nth i (nth k (eta s') []) 0%R = sumR n (fun q => nth i (z q) 0%R) /\
        nth i (nth k (etamk s') []) 0%R = sumR n (fun q => if Nat.eqb q k then 0%R else nth i (z q) 0%R).
Proof. exact (in_network_sum n N Ns nbrs r st o trees fz new evs s). Qed.

(** The hypotheses hold for the initial state and the first instant of the
    three-node network 0 - 1 - 2 rooted at node 1. *)
Example C22_example :
  let nbrs := [[1]; [0; 2]; [1]] in
  let o := [[0; 2]; [1]] in
  let evs := [(1, Tr); (0, Fu); (2, Fu); (1, Fu); (0, Bc); (2, Bc); (1, Bc); (1, Re); (0, Re); (2, Re); (1, Up); (0, Up); (2, Up)] in
  is_tree 3 nbrs /\ orientate nbrs 1 = Ok (mkO [[]; [0; 2]; []] [[1]; []; [1]], o) /\
  well_shaped 3 4 (net0 4 3) /\ in_use [([[]; [0; 2]; []], 1)] (net0 4 3) evs ([[]; [0; 2]; []], 1) /\
  StronglySorted (ti_before o) evs /\ NoDup evs.
Proof.
  cbv zeta. split; [apply (tree_check_ok [[1]; [0; 2]; [1]]); reflexivity|]. split; [reflexivity|].
  split. { unfold well_shaped. repeat (split; [reflexivity|]). intros k Hk. destruct k as [|[|[|k]]]; [reflexivity.. | lia]. }
  split; [reflexivity|]. split.
  - assert (HL : forall k l, at_level [[0; 2]; [1]] k l -> l = if Nat.eqb k 1 then 1 else 0).
    { intros k l [lvl [H1 H2]]. destruct l as [|[|l]]; simpl in H1; [| |destruct l; discriminate]; injection H1 as <-; simpl in H2.
      - destruct H2 as [<-|[<-|[]]]; reflexivity. - destruct H2 as [<-|[]]; reflexivity. }
    repeat (constructor; [|repeat (constructor; [first
       [ left; simpl; lia
       | right; split; [reflexivity|]; intros la lb Ha Hb; apply HL in Ha; apply HL in Hb; simpl in *; lia ]|]); constructor ]).
    constructor.
  - repeat (constructor; [simpl; intuition discriminate|]). constructor.
Qed.

(** ... and the sums come out as claimed (fused samples 1, 2 for node 0; 10, 20
    for node 1; 100, 200 for node 2). *)
Example C22_run :
  let fz k := Some (match k with 0 => [1; 2] | 1 => [10; 20] | _ => [100; 200] end)%R in
  exists s', ti_instant 4 2 [([[]; [0; 2]; []], 1)] fz
    [(1, Tr); (0, Fu); (2, Fu); (1, Fu); (0, Bc); (2, Bc); (1, Bc); (1, Re); (0, Re); (2, Re)] (net0 4 3) = Ok s' /\
    nth 3 (nth 0 (eta s') []) 0%R = 222%R /\ nth 3 (nth 0 (etamk s') []) 0%R = 220%R /\
    nth 2 (nth 1 (etamk s') []) 0%R = 101%R.
Proof.
  cbv zeta. eexists. split; [cbv -[Rplus Ropp Rminus IZR]; reflexivity|].
  cbv -[Rplus Ropp Rminus IZR]. repeat split; lra.
Qed.

(** Over a run from the initial state in which trees are formed at some instants, the
    first included, and taken from the list one after the other: at every instant the
    sums are those of the fused frames accumulated so far, whatever the trees. *)
Theorem C22_every_instant_of_a_run n N Ns trees ins : 0 < Ns < N ->
  (forall j, j < length ins -> trees_formed (snd (nth j ins i0)) <= 1 /\ full_instant n Ns trees (formed_upto ins j - 1) (nth j ins i0)) ->
  0 < formed_upto ins 0 ->
  forall j, j < length ins -> exists s, ti_run N Ns trees (firstn (S j) ins) (net0 N n) = Ok s /\ well_shaped n N s /\
    formed s = formed_upto ins j /\ cur s = nth_error trees (formed_upto ins j - 1) /\
    forall k, k < n ->
      let z q := frame_after N Ns (firstn (S j) ins) q in
      nth k (zp s) [] = z k /\ length (nth k (eta s) []) = N /\ length (nth k (etamk s) []) = N /\
      forall i, i < N ->
        nth i (nth k (eta s) []) 0%R = sumR n (fun q => nth i (z q) 0%R) /\
        nth i (nth k (etamk s) []) 0%R = sumR n (fun q => if Nat.eqb q k then 0%R else nth i (z q) 0%R).
Proof. exact (run_sums n N Ns trees ins). Qed.

(** Its hypotheses hold for a first instant of the network 0 - 1 - 2. *)
Example C22_run_hypotheses :
  let fz k := Some (match k with 0 => [1; 2] | 1 => [10; 20] | _ => [100; 200] end)%R in
  let ins := [(fz, [(1, Tr); (0, Fu); (2, Fu); (1, Fu); (0, Bc); (2, Bc); (1, Bc); (1, Re); (0, Re); (2, Re); (1, Up); (0, Up); (2, Up)])] in
  (forall j, j < length ins -> trees_formed (snd (nth j ins i0)) <= 1 /\ full_instant 3 2 [([[]; [0; 2]; []], 1)] (formed_upto ins j - 1) (nth j ins i0)) /\
  0 < formed_upto ins 0.
Proof.
  cbv zeta. split; [|vm_compute; lia]. intros j Hj. destruct j as [|j]; [|cbn in Hj; lia]. split; [vm_compute; lia|].
  destruct C22_example as (A & B & _ & _ & C & D). exists [[1]; [0; 2]; [1]], 1, (mkO [[]; [0; 2]; []] [[1]; []; [1]]), [[0; 2]; [1]].
  split; [exact A|]. split; [lia|]. split; [exact B|]. split; [reflexivity|]. split.
  - intros k Hk. cbn [nth fst]. eexists. split; [reflexivity|]. destruct k as [|[|k]]; cbn; lia.
  - split; [exact C|]. split; [exact D|]. split.
    + intros k Hk. destruct k as [|[|[|k]]]; [cbn; tauto| cbn; tauto|cbn; tauto|lia].
    + intros e He. cbn [nth snd] in He. repeat (destruct He as [<-|He]; [cbn; lia|]). destruct He.
Qed.

(** Two instants, a new tree at each: first rooted at node 1, then at node 0. *)
Example C22_run_two_trees :
  let fz k := Some (match k with 0 => [1; 2] | 1 => [10; 20] | _ => [100; 200] end)%R in
  let i1 := (fz, [(1, Tr); (0, Fu); (2, Fu); (1, Fu); (0, Bc); (2, Bc); (1, Bc); (1, Re); (0, Re); (2, Re)]) in
  let i2 := (fz, [(0, Tr); (2, Fu); (1, Fu); (0, Fu); (2, Bc); (1, Bc); (0, Bc); (0, Re); (1, Re); (2, Re)]) in
  exists s', ti_run 4 2 [([[]; [0; 2]; []], 1); ([[1]; [2]; []], 0)] [i1; i2] (net0 4 3) = Ok s' /\
    formed s' = 2 /\ nth 0 (nth 2 (eta s') []) 0%R = 111%R /\ nth 3 (nth 2 (eta s') []) 0%R = 222%R.
Proof.
  cbv zeta. eexists. split; [cbv -[Rplus Ropp Rminus IZR]; reflexivity|].
  cbv -[Rplus Ropp Rminus IZR]. repeat split; lra.
Qed.

Print Assumptions C22_every_instant_of_a_run.
Print Assumptions C22_in_network_sum.
Print Assumptions C23_terminates.
Print Assumptions C23_orientation.
Print Assumptions C24_leaf_to_root.
