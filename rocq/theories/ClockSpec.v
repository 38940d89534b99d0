(** Specification vocabulary for clocks (C72). *)
From Verif Require Import Base Clock.
From Coq Require Import Reals.
Local Open Scope R_scope.

(** Time stamps of [n] samples at the frequency [f]. *)
Definition stamps (f : R) (n : nat) : list R := map (fun i => INR i / f) (seq 0 n).
(** Interval after sample [i]. *)
Definition interval (t : list R) (i : nat) : R := nth (S i) t 0 - nth i t 0.
(** Average interval: total duration over number of intervals. *)
Definition average_interval (t : list R) : R := (nth (length t - 1) t 0 - nth 0 t 0) / INR (length t - 1).
