(** Specification for C79: distances, rotations, boxes. *)
From Verif Require Import Base Layout.
From Coq Require Import Reals.
Local Open Scope R_scope.

Definition distance (a b : vec) : R := norm (vsub a b).
(** linear and preserving lengths *)
Definition rotation (f : vec -> vec) : Prop :=
  (forall a b, f (vadd a b) = vadd (f a) (f b)) /\ (forall k a, f (vscale k a) = vscale k (f a)) /\ (forall a, dot (f a) (f a) = dot a a).
(** at a distance of at least [m] from all walls of the room of dimensions [rd] *)
Definition away (rd : vec) (m : R) (p : vec) : Prop :=
  (m <= px p <= px rd - m) /\ (m <= py p <= py rd - m) /\ (m <= pz p <= pz rd - m).
(** numbers between 0 and 1, as those drawn *)
Definition unit (u : vec) : Prop := 0 <= px u <= 1 /\ 0 <= py u <= 1 /\ 0 <= pz u <= 1.
(** no coordinate differs by more than [r] *)
Definition within (r : R) (a b : vec) : Prop := Rabs (px a - px b) <= r /\ Rabs (py a - py b) <= r /\ Rabs (pz a - pz b) <= r.
(** extent of an array around its node *)
Definition reach (g : geometry) (M : nat) (sep : R) : R :=
  match g with Linear => INR M * sep / 2 | Radius => sep / 2 | Grid3d => sep | OtherGeometry => 0 end.
