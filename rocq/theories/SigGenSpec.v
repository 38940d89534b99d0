(** Specification vocabulary for scenario generation. *)
From Verif Require Import Base.
From Coq Require Import QArith.
Open Scope nat_scope.

(** Number of sensors before node [k]. *)
Definition before (ms : list nat) (k : nat) : nat := list_sum (firstn k ms).
(** Sensor [j] belongs to node [k]: the sensors of node [k] are numbered from
    [before ms k] on. *)
Definition belongs (ms : list nat) (j k : nat) : Prop := before ms k <= j < before ms k + nth k ms 0 /\ k < length ms.

(** Node [q] is in the neighbour list of node [k]. *)
Definition neighbour (nbrs : list (list nat)) (k q : nat) : Prop := exists l, nth_error nbrs k = Some l /\ In q l.

(** Sample [i] ends an utterance: speech at [i - 1], silence from [i] on for at
    least [thr] samples, then speech again at [j]. *)
Definition ends_utterance (thr : Q) (vad : list bool) (i j : nat) : Prop :=
  1 <= i < j /\ j < length vad /\ nth (i - 1) vad false = true /\
  (forall m, i <= m < j -> nth m vad false = false) /\ nth j vad false = true /\
  (thr <= inject_Z (Z.of_nat j - Z.of_nat i))%Q.
(** ... and it is the first to do so. *)
Definition first_end (thr : Q) (vad : list bool) (i j : nat) : Prop :=
  ends_utterance thr vad i j /\ forall i' j', ends_utterance thr vad i' j' -> i <= i'.
