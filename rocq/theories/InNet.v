(** Model of the in-network sum of topology-independent DANSE:
    danse_toolbox/d_classes.py 2732-2783, 2785-2853 (the variable written by the
    fusion), 2875-2916 and the event loop of danse_toolbox/d_core.py 174-225.
    The fused samples themselves are given ([fz]); see Wola.v and Chunk.v for
    their computation. *)
From Verif Require Import Base Buffers Sched.
From Coq Require Import Reals.
Set Implicit Arguments.
Open Scope nat_scope.

Fixpoint map2 {A B C} (f : A -> B -> C) (a : list A) (b : list B) : list C :=
  match a, b with x :: a', y :: b' => f x y :: map2 f a' b' | _, _ => [] end.

(** numpy [a += b] for one-dimensional arrays. *)
Definition np_iadd (a b : list R) : res (list R) :=
  if Nat.eqb (length a) (length b) then Ok (map2 Rplus a b)
  else match b with [x] => Ok (map (fun y => Rplus y x) a) | _ => Err ValueError end.

(** numpy [a - b] for one-dimensional arrays. *)
Definition np_sub (a b : list R) : res (list R) :=
  if Nat.eqb (length a) (length b) then Ok (map2 Rminus a b)
  else match a, b with
       | _, [x] => Ok (map (fun y => Rminus y x) a)
       | [x], _ => Ok (map (fun y => Rminus x y) b)
       | _, _ => Err ValueError
       end.

(** An oriented tree as used by the algorithm: upstream neighbours of every
    node, and the root. *)
Definition otree := (list (list nat) * nat)%type.

(** d_classes.py 2736-2752, 781: [zLocalPrime], [zLocalPrimeBuffer], [zLocal],
    [eta], [etaMk], the current tree and [treeFormationCounter]. *)
Record net := mkNet {
  zp : list (list R); zpb : list (list R); zl : list (list R);
  eta : list (list R); etamk : list (list R);
  cur : option otree; formed : nat
}.

Section InNet.
  Variables (N Ns : nat).

  (** d_classes.py 2736-2752: initial values. *)
  Definition net0 (n : nat) : net :=
    mkNet (repeat (repeat 0%R N) n) (repeat [] n) (repeat [] n) (repeat [] n) (repeat [] n) None 0.

  (** d_classes.py 2763-2783 with d_core.py 216-222. *)
  Definition ti_new_tree (trees : list otree) (s : net) : res net :=
    do t <- get trees (formed s);
    Ok (mkNet (zp s) (zpb s) (zl s) (eta s) (etamk s) (Some t) (S (formed s))).

  (** d_classes.py 2785-2853: only the write to [zLocalPrimeBuffer[k]]; [None]
      when there are not enough local samples (line 2823). *)
  Definition ti_fuse (fz : nat -> option (list R)) (k : nat) (s : net) : res net :=
    do _ <- get (zpb s) k;
    match fz k with
    | None => Ok s
    | Some z => Ok (mkNet (zp s) (upd k z (zpb s)) (zl s) (eta s) (etamk s) (cur s) (formed s))
    end.

  (** lines 2890-2892: one upstream neighbour. *)
  Definition add_partial (zls : list (list R)) (acc : list R) (l : nat) : res (list R) :=
    do z <- get zls l;
    match z with [] => Ok acc | _ => np_iadd acc z end.

  (** d_classes.py 2875-2898 [ti_compute_partial_sum].  Simplified: a node that is
      its own upstream neighbour would read the sum being accumulated. *)
  Definition ti_partial_sum (k : nat) (s : net) : res net :=
    do z0 <- get (zp s) k;
    do b <- get (zpb s) k;
    let z := py_from (- (Z.of_nat N - Z.of_nat Ns)) z0 ++ firstn Ns b in
    let zp' := upd k z (zp s) in
    match cur s with
    | None => Err AttributeError
    | Some (ups, root) =>
      do us <- get ups k;
      do acc <- foldM (add_partial (upd k z (zl s))) us z;
      let zl' := upd k acc (zl s) in
      if Nat.eqb root k then
        do m <- np_sub acc z;
        Ok (mkNet zp' (zpb s) zl' (upd k acc (eta s)) (upd k m (etamk s)) (cur s) (formed s))
      else Ok (mkNet zp' (zpb s) zl' (eta s) (etamk s) (cur s) (formed s))
    end.

  (** lines 2909-2914: one upstream neighbour. *)
  Definition relay_one (k : nat) (s : net) (l : nat) : res net :=
    do e <- get (eta s) k;
    do z <- get (zp s) l;
    do m <- (match e with [] => Ok [] | _ => np_sub e z end);
    Ok (mkNet (zp s) (zpb s) (zl s) (upd l e (eta s)) (upd l m (etamk s)) (cur s) (formed s)).

  (** d_classes.py 2902-2916 [ti_relay_innetwork_sum_upstream].  Before the first
      tree formation (there is one at time 0) the code would use the neighbours
      of the network object; the model raises. *)
  Definition ti_relay (k : nat) (s : net) : res net :=
    match cur s with
    | None => Err AttributeError
    | Some (ups, _) =>
      do us <- get ups k;
      foldM (relay_one k) us s
    end.

  (** d_core.py 191-225: one event.  The filter update ('up') reads [etaMk] and
      changes none of these variables. *)
  Definition ti_event (trees : list otree) (fz : nat -> option (list R)) (s : net) (e : nat * evtype) : res net :=
    match snd e with
    | Tr => ti_new_tree trees s
    | Fu => ti_fuse fz (fst e) s
    | Bc => ti_partial_sum (fst e) s
    | Re => ti_relay (fst e) s
    | Up => Ok s
    end.

  (** d_core.py 191-225: all events of one instant. *)
  Definition ti_instant trees fz (evs : list (nat * evtype)) (s : net) : res net :=
    foldM (ti_event trees fz) evs s.
End InNet.
