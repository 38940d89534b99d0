(** Specification vocabulary for the centralised signals. *)
From Verif Require Import Base.
Set Implicit Arguments.

(** [m] has [r] rows of [c] entries. *)
Definition is_matrix {A} (r c : nat) (m : list (list A)) : Prop :=
  length m = r /\ Forall (fun row => length row = c) m.

(** Matrices of [r] rows put side by side. *)
Definition side_by_side {A} (r : nat) (ms : list (list (list A))) : list (list A) :=
  map (fun i => flat_map (fun m => nth i m []) ms) (seq 0 r).

(** All nodes but [k], in order. *)
Definition others (n k : nat) : list nat := seq 0 k ++ seq (S k) (n - S k).
