(** Specification vocabulary for SNR estimates from the microphone signals (C98). *)
From Verif Require Import Base Eval EvalSpec.
From Coq Require Import Reals.
Local Open Scope R_scope.

(** The samples of a signal at which the VAD says [b]; mean power; decibels of a power ratio. *)
Fixpoint during (b : bool) (x : list R) (vad : list bool) : list R :=
  match x, vad with
  | a :: x', v :: vad' => if Bool.eqb v b then a :: during b x' vad' else during b x' vad'
  | _, _ => []
  end.
Definition power (x : list R) : R := energy x / INR (length x).
Definition decibels (r : R) : R := 10 * log10 r.
