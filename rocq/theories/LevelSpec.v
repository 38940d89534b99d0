(** Specification vocabulary for VAD, noise levels and rotation. *)
From Verif Require Import Base Level.
From Coq Require Import Reals.
Open Scope R_scope.

(** the samples of the window of [nw] samples around [i]: from [nw/2] before [i]
    (included) to [nw/2] after [i] (excluded), among [n] samples *)
Definition around (n nw i : nat) : list nat :=
  filter (fun j => Nat.leb i (j + nw / 2) && Nat.ltb j (i + nw / 2)) (seq 0 n).
Definition mean_energy_at (x : list R) (idx : list nat) : R :=
  fold_right Rplus 0 (map (fun j => nth j x 0 ^ 2) idx) / INR (length idx).

(** decibels of a power ratio *)
Definition dB_ratio (snr : R) : R := Rpower 10 (snr / 10).

Definition dist2 (p q : v3) : R := (vx p - vx q) ^ 2 + (vy p - vy q) ^ 2 + (vz p - vz q) ^ 2.
Definition det3 (m : m3) : R := dot (r1 m) (cross (r2 m) (r3 m)).

(** Signal [x] through the impulse response [ir]; several signals through theirs,
    added up; energy of the first [n] samples. *)
Definition conv_at (ir x : list R) (t : nat) : R := fold_right Rplus 0 (map (fun k => nth k ir 0 * nth (t - k) x 0) (seq 0 (S t))).
Definition received (irs xs : list (list R)) (t : nat) : R := fold_right Rplus 0 (map (fun p => conv_at (fst p) (snd p) t) (combine irs xs)).
Definition energy_of (n : nat) (x : nat -> R) : R := fold_right Rplus 0 (map (fun t => x t ^ 2) (seq 0 n)).
