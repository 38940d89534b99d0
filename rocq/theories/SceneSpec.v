(** Specification vocabulary for the assembly of scenarios. *)
From Verif Require Import Base Level LevelSpec SigGen SigGenSpec Scene.
From Coq Require Import Reals.
Local Open Scope R_scope.

(** impulse responses from the sources [xs] to sensor [m] of node [k] *)
Definition responses (irs : irs_t) (k m : nat) : list ir := nth m (nth k irs []) [].
(** every sensor of every node has a response for each of the [n] sources *)
Definition complete (n : nat) (irs : irs_t) : Prop := forall k m, (k < length irs)%nat -> (m < length (nth k irs []))%nat -> length (responses irs k m) = n.
(** [len] samples of the signal [f] *)
Definition samples (len : nat) (f : nat -> R) : list R := map f (seq 0 len).
