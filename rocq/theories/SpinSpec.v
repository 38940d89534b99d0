(** Specification for C80. *)
From Verif Require Import Base Layout LayoutSpec Spin.
From Coq Require Import Reals.
Local Open Scope R_scope.

(** on the line of the given azimuth and elevation through [(ox, oy, 0)] *)
Definition on_line (az el ox oy : R) (p : vec) : Prop :=
  exists r, p = V (r * cos az * sin el + ox) (r * sin az * sin el + oy) (r * cos el).
(** no two points closer than [s] *)
Definition spaced (s : R) (l : list vec) : Prop :=
  forall i j, (i < j < length l)%nat -> s <= distance (nth i l vzero) (nth j l vzero).
