(** Specification vocabulary for the in-network sum. *)
From Verif Require Import Base Sched SchedSpec Buffers Tree TreeSpec InNet.
From Coq Require Import Reals Sorted.
Open Scope nat_scope.

(** The frame of [N] samples of the fused signal of a node once [Ns] new samples
    have come in: the last [N - Ns] known samples, then the new ones. *)
Definition shifted_frame (N Ns : nat) (old new : list R) : list R :=
  skipn (length old - (N - Ns)) old ++ firstn Ns new.

(** The tree [t] is the one in use for the exchange of signals at an instant
    with events [evs]: the next one of the list if a tree is formed at this
    very instant, else the one already in place. *)
Definition in_use (trees : list otree) (s : net) (evs : list (nat * evtype)) (t : otree) : Prop :=
  match filter (fun e => match snd e with Tr => true | _ => false end) evs with
  | [] => cur s = Some t
  | [_] => nth_error trees (formed s) = Some t
  | _ => False
  end.

(** A network state for [n] nodes whose frames all have [N] samples. *)
Definition well_shaped (n N : nat) (s : net) : Prop :=
  length (zp s) = n /\ length (zpb s) = n /\ length (zl s) = n /\ length (eta s) = n /\ length (etamk s) = n /\
  forall k, k < n -> length (nth k (zp s) []) = N.

(** Runs: the events of successive instants, with the local fused frames computed there. *)
Definition instant := ((nat -> option (list R)) * list (nat * evtype))%type.
Definition i0 : instant := (fun _ => None, []).
Definition trees_formed (evs : list (nat * evtype)) : nat :=
  length (filter (fun e => match snd e with Tr => true | _ => false end) evs).
(** number of trees formed in the instants up to and including the [j]-th *)
Definition formed_upto (ins : list instant) (j : nat) : nat :=
  list_sum (map (fun i => trees_formed (snd i)) (firstn (S j) ins)).
(** fused frame of a node after the instants [ins] *)
Definition frame_after (N Ns : nat) (ins : list instant) (k : nat) : list R :=
  fold_left (fun old i => match fst i k with Some new => shifted_frame N Ns old new | None => old end) ins (repeat 0%R N).
Definition ti_run (N Ns : nat) (trees : list otree) (ins : list instant) (s : net) : res net :=
  foldM (fun s i => ti_instant N Ns trees (fst i) (snd i) s) ins s.
(** at this instant all nodes fuse, send their partial sums and relay the sum, in the
    order of the schedule, over the [c]-th tree of the list *)
Definition full_instant (n Ns : nat) (trees : list otree) (c : nat) (i : instant) : Prop :=
  exists nbrs r st o, is_tree n nbrs /\ r < n /\ orientate nbrs r = Ok (st, o) /\ nth_error trees c = Some (o_up st, r) /\
    (forall k, k < n -> exists new, fst i k = Some new /\ Ns <= length new) /\
    StronglySorted (ti_before o) (snd i) /\ NoDup (snd i) /\
    (forall k, k < n -> In (k, Fu) (snd i) /\ In (k, Bc) (snd i) /\ In (k, Re) (snd i)) /\
    (forall e, In e (snd i) -> fst e < n).
