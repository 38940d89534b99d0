(** Model of the pruning of a network to a tree: danse_toolbox/d_base.py 2103-2222
    [prune_wasn_to_tree] (with [forcedRoot], as in all uses in the toolbox) and
    [update_wasn_object_from_nxgraph]; siggen/classes.py 448-454.

    networkx is not part of the repository; its [minimum_spanning_tree] with the default
    algorithm of the toolbox ('prim') is modelled after networkx's documentation and source
    (prim_mst_edges): a frontier of edges ordered by weight and time of insertion.  The
    order in which Python's set of nodes is emptied is a parameter.  Reals instead of
    floats. *)
From Verif Require Import Base Buffers Tree Sched InNet Online Full TiRun TiSched.
From Coq Require Import Reals.
Local Open Scope nat_scope.

(** [np.allclose] with its default tolerances *)
Definition close (a b : R) : bool := if Rle_dec (Rabs (a - b)) (/ 10 ^ 8 + / 10 ^ 5 * Rabs b)%R then true else false.
Definition allclose (a b : list R) : bool := forallb (fun p => close (fst p) (snd p)) (combine a b).
(** classes.py 448-454 *)
Definition all_same_position (pos : list (list R)) : bool := forallb (allclose (nth 0 pos [])) pos.
(** [np.linalg.norm(a - b)] *)
Definition euclid (a b : list R) : R := sqrt (fold_right Rplus 0%R (map (fun p => ((fst p - snd p) * (fst p - snd p))%R) (combine a b))).
(** d_base.py 2139-2153: weight of the link between nodes [i] and [j] *)
Definition link_weight (pos : list (list R)) (i j : nat) : R :=
  if all_same_position pos then 1%R else euclid (nth i pos []) (nth j pos []).

Section Prim.
  Variable n : nat.
  (** entries of the adjacency matrix that are not zero; the diagonal is used as well
      (2133 [from_numpy_array]: an undirected graph, with loops) *)
  Variable A : nat -> nat -> bool.
  Variable wt : nat -> nat -> R.

  Definition adj (u : nat) : list nat := filter (fun v => A u v || A v u) (seq 0 n).

  (** an edge of the frontier: weight, counter, visited end, other end *)
  Record item := mkIt { it_w : R; it_c : nat; it_u : nat; it_v : nat }.
  Definition before (a b : item) : bool :=
    if Rlt_dec (it_w a) (it_w b) then true else if Rlt_dec (it_w b) (it_w a) then false else it_c a <? it_c b.
  (** [heappush] on a frontier kept in order; [heappop] takes its first element *)
  Fixpoint push (x : item) (l : list item) : list item :=
    match l with
    | [] => [x]
    | y :: l' => if before x y then x :: l else y :: push x l'
    end.
  (** the edges of [u] to nodes that are not in [skip], pushed one after the other *)
  Definition push_all (u : nat) (skip : list nat) (fr : list item) (c : nat) : list item * nat :=
    fold_left (fun a v => if memN v skip then a else (push (mkIt (wt u v) (snd a) u v) (fst a), S (snd a))) (adj u) (fr, c).

  (** inner loop: nodes left, visited nodes, frontier, counter, edges of the tree *)
  Fixpoint prim_loop (fuel : nat) (nodes visited : list nat) (fr : list item) (c : nat) (es : list (nat * nat))
    : res (list nat * nat * list (nat * nat)) :=
    match fuel with
    | O => Err OutOfFuel
    | S fuel' =>
      match nodes, fr with
      | [], _ | _, [] => Ok (nodes, c, es)
      | _, it :: fr' =>
        let v := it_v it in
        if memN v visited || negb (memN v nodes) then prim_loop fuel' nodes visited fr' c es
        else
          let visited' := v :: visited in
          let r := push_all v visited' fr' c in
          prim_loop fuel' (remove Nat.eq_dec v nodes) visited' (fst r) (snd r) ((it_u it, v) :: es)
      end
    end.
  (** outer loop: one tree per connected component *)
  Fixpoint prim_outer (fuel : nat) (nodes : list nat) (c : nat) (es : list (nat * nat)) : res (list (nat * nat)) :=
    match nodes with
    | [] => Ok es
    | u :: rest =>
      match fuel with
      | O => Err OutOfFuel
      | S fuel' =>
        let r := push_all u [] [] c in
        do r2 <- prim_loop (S (S n * n)) rest [u] (fst r) (snd r) es;
        let '(nodes', c', es') := r2 in
        prim_outer fuel' nodes' c' es'
      end
    end.
  (** 2156-2160; [order] is the order in which the nodes are taken out of the set *)
  Definition spanning_edges (order : list nat) : res (list (nat * nat)) := prim_outer (length order) order 0 [].

  (** 2209-2216: [adjMat] holds the weights of the links that are kept *)
  Definition is_link (es : list (nat * nat)) (k q : nat) : bool :=
    existsb (fun e => (Nat.eqb (fst e) k && Nat.eqb (snd e) q) || (Nat.eqb (fst e) q && Nat.eqb (snd e) k)) es.
  Definition pruned_neighbours (es : list (nat * nat)) : list (list nat) :=
    map (fun k => filter (fun q => is_link es q k && if Rlt_dec 0 (wt q k) then true else false) (seq 0 n)) (seq 0 n).
End Prim.

(** [nodeType] *)
Inductive ntype := Plain | Leaf | Root.
Record pruned := mkPr { pr_nbrs : list (list nat); pr_types : list ntype; pr_orient : ost; pr_order : list (list nat) }.

(** 2103-2183, [pos] is [None] when the nodes have no position (siggen/utils.py 1319:
    [np.allclose] fails on [None], before line 2151 is reached). *)
Definition prune (n : nat) (A : nat -> nat -> bool) (pos : option (list (list R))) (order : list nat) (root : nat) : res pruned :=
  match pos with
  | None => Err TypeError
  | Some pos =>
    let wt := link_weight pos in
    do es <- spanning_edges n A wt order;
    let nb := pruned_neighbours n wt es in
    (** 2166-2173 *)
    let types := map (fun l => if Nat.eqb (length l) 1 then Leaf else Plain) nb in
    do _ <- get types root;
    do so <- orientate nb root;
    Ok (mkPr nb (upd root Root types) (fst so) (snd so))
  end.

(** d_base.py 690-698 with d_core.py 152-242: the network is pruned once per possible root,
    before the schedule is built. *)
Definition ti_network_danse (tsort : list event -> list event) (c : tcfg) (y : list (list (list R)))
    (A : nat -> nat -> bool) (pos : option (list (list R))) (order : list nat) (nodes : list tnode) : res tst :=
  do prs <- mapM (prune (length nodes) A pos order) (seq 0 (length nodes));
  let pr r := nth r prs (mkPr [] [] (Tree.mkO [] []) []) in
  ti_danse tsort c y (fun r => (o_up (pr_orient (pr r)), r)) (fun r => pr_order (pr r)) nodes.
