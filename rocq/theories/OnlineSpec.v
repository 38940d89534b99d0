(** Specification vocabulary for the superposition of runs (C30). *)
From Verif Require Import Base Sched Buffers Online.
From Coq Require Import Reals.
Local Open Scope R_scope.

(** Signals of a network: node, sensor, sample. *)
Definition at3 (y : list (list (list R))) (k s i : nat) : R := nth i (nth s (nth k y []) []) 0.
Definition shape (y : list (list (list R))) : list (list nat) := map (map (@length R)) y.
(** Every sample of every sensor of [y] is the sum of those of [s] and [n]. *)
Definition mixture (y s n : list (list (list R))) : Prop :=
  shape y = shape s /\ shape y = shape n /\ forall k c i, at3 y k c i = at3 s k c i + at3 n k c i.

(** Outputs of the nodes: node, sample. *)
Definition at2 (d : list (list R)) (k i : nat) : R := nth i (nth k d []) 0.
Definition outputs_add (y s n : list (list R)) : Prop :=
  map (@length R) y = map (@length R) s /\ map (@length R) y = map (@length R) n /\
  forall k i, at2 y k i = at2 s k i + at2 n k i.

(** The first [m] events of a run. *)
Definition reached (c : ocfg) (y : list (list (list R))) (sched : list instant) (st : ostate R) (m : nat) : res (ostate R) :=
  foldM (online_event c y) (firstn m (flat_events sched)) st.

Definition silent (z : list R) : Prop := forall v, In v z -> v = 0.
(** At any time, the last compressed block of a node is silent in all three runs or
    in none. *)
Definition silent_together (c : ocfg) (y s n : list (list (list R))) (sched : list instant) (st : ostate R) : Prop :=
  forall m ry rs rn, reached c y sched st m = Ok ry -> reached c s sched st m = Ok rs -> reached c n sched st m = Ok rn ->
  forall k, (silent (nth k (os_zl ry) []) <-> silent (nth k (os_zl rs) [])) /\
            (silent (nth k (os_zl ry) []) <-> silent (nth k (os_zl rn) [])).
