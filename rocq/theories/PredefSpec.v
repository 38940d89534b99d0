(** Specification vocabulary for predefined layouts (C92). *)
From Verif Require Import Base SigGenSpec Predef.
From Coq Require Import QArith.
Open Scope nat_scope.

(** A layout that describes all the sensors it announces, at least one per node. *)
Definition complete_layout (ly : layout) : Prop :=
  ly_m ly <> [] /\ Forall (fun m => 0 < m) (ly_m ly) /\ length (ly_sensors ly) = list_sum (ly_m ly).
(** Positions of the sensors of node [k] according to the layout. *)
Definition laid_out (ly : layout) (k : nat) : list pos := firstn (nth k (ly_m ly) 0) (skipn (before (ly_m ly) k) (ly_sensors ly)).

(** One value per node, or values that can stand for any number of nodes. *)
Definition fits (v : list Q) (n : nat) : Prop := length v = n \/ forall a b, In a v -> In b v -> (a == b)%Q.
(** Walls far enough from one another. *)
Definition wide (rd : list Q) (d : Q) : Prop := rd <> [] /\ forall x, In x rd -> (d < x / 3)%Q.
(** As many signals as sources. *)
Definition enough_signals (p : wparams) (ly : layout) : Prop :=
  length (ly_targets ly) <= wp_desired_files p /\
  length (ly_interferers ly) <= match wp_noise_files p with Given n => n | FromFolder n => n end.
