(** Specification of resampling: band-limited interpolation of windowed segments. *)
From Verif Require Import Base ChunkSpec.
From Coq Require Import Reals.
Local Open Scope R_scope.

(** The interpolation kernel of [N]-periodic band-limited sequences: 1 at 0, 0 at the other
    integers below [N]. *)
Definition interp_kernel (N : nat) (u : R) : R := sumR N (fun k => cos (2 * PI * (INR k - INR N / 2) * u / INR N)) / INR N.
(** Fade-in of the segments. *)
Definition fade (B j : nat) : R := (sin (PI * INR j / INR (2 * B))) ^ 2.
(** Sample [j] of a signal that is silent before its start. *)
Definition sample_at (x : list R) (j : Z) : R := if Z.ltb j 0 then 0 else nth (Z.to_nat j) x 0.
(** The segment of [2 B] samples of [x] from sample [start] on, faded in and out, read [u]
    samples after its start. *)
Definition read_segment (B : nat) (x : list R) (start : Z) (u : R) : R :=
  sumR (2 * B) (fun j => fade B j * sample_at x (start + Z.of_nat j) * interp_kernel (4 * B) (u - INR j)).
(** [r] is the nearest integer to [x], the even one for halves. *)
Definition nearest (x : R) (r : Z) : Prop := Rabs (x - IZR r) <= 1 / 2 /\ (Rabs (x - IZR r) = 1 / 2 -> Z.even r = true).
