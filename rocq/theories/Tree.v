(** Model of the orientation of a tree network: siggen/classes.py 546-596. *)
From Verif Require Import Base Buffers.
Set Implicit Arguments.
Open Scope nat_scope.

(** Upstream and downstream neighbour lists of all nodes. *)
Record ost := mkO { o_up : list (list nat); o_down : list (list nat) }.

Section Orientate.
  (** [nbrs]: the [neighborsIdx] of every node. *)
  Variable nbrs : list (list nat).

  (** classes.py 567-571: inner loop, completing the upstream list of [q]. *)
  Definition add_upstream (q : nat) (st : ost) (ii : nat) : res ost :=
    do dq <- get (o_down st) q;
    do uq <- get (o_up st) q;
    Ok (if memN ii dq || memN ii uq then st
        else mkO (upd q (uq ++ [ii]) (o_up st)) (o_down st)).

  (** classes.py 557-571: one neighbour [q] of [node]; the accumulator is the
      state and [nextNodesIndices]. *)
  Definition visit_one (node : nat) (passed : list nat) (acc : ost * list nat) (q : nat)
    : res (ost * list nat) :=
    let (st, next) := acc in
    do dq <- get (o_down st) q;
    do uq <- get (o_up st) q;
    do acc1 <-
      (if memN node dq || memN node uq then Ok (st, next)
       else
         let st1 := mkO (o_up st) (upd q (dq ++ [node]) (o_down st)) in
         if memN q passed then Ok (st1, next)
         else
           do un <- get (o_up st1) node;
           Ok (if memN q un then st1 else mkO (upd node (un ++ [q]) (o_up st1)) (o_down st1),
               next ++ [q]));
    do nq <- get nbrs q;
    do st2 <- foldM (add_upstream q) nq (fst acc1);
    Ok (st2, snd acc1).

  (** classes.py 549-572 [identify_upstream_downstream]. *)
  Definition visit (node : nat) (passed : list nat) (st : ost) : res (ost * list nat) :=
    do nn <- get nbrs node;
    foldM (visit_one node passed) nn (st, []).

  (** classes.py 585-590: one level; state, passed nodes, next level. *)
  Definition level_step (acc : ost * list nat * list nat) (k : nat) : res (ost * list nat * list nat) :=
    let '(st, passed, nextnext) := acc in
    do r <- visit k passed st;
    Ok (fst r, passed ++ [k], nextnext ++ snd r).

  (** classes.py 582-594: the [while] loop; [acc] is [leafToRootOrdering] before
      its reversal. *)
  Fixpoint orient_loop (fuel : nat) (level passed : list nat) (st : ost) (acc : list (list nat))
    : res (ost * list (list nat)) :=
    match level with
    | [] => Ok (st, acc)
    | _ =>
      match fuel with
      | O => Err OutOfFuel
      | S fuel' =>
        do r <- foldM level_step level (st, passed, []);
        let '(st', passed', next) := r in
        orient_loop fuel' next passed' st' (match next with [] => acc | _ => acc ++ [next] end)
      end
    end.

  (** classes.py 546-596 [orientate] for a network whose root has been set (the
      check of lines 548-550 is passed).  The root level, a bare integer in the
      code, is a one-element list. *)
  Definition orientate (root : nat) : res (ost * list (list nat)) :=
    let n := length nbrs in
    do r <- orient_loop (S (S (n * n))) [root] [] (mkO (repeat [] n) (repeat [] n)) [[root]];
    Ok (fst r, rev (snd r)).
End Orientate.
