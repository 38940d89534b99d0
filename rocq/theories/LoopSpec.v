(** Specification of what the loop feeds to its resampler: the second channel with the
    negated estimate reported for the frame before (zero at first). *)
From Verif Require Import Base.
From Coq Require Import Reals.
Local Open Scope R_scope.

Fixpoint fed (prev : R) (frames : list (list R)) (ests : list R) : list (list R * R * R) :=
  match frames, ests with
  | x :: frames', e :: ests' => (x, - prev, 0) :: fed e frames' ests'
  | _, _ => []
  end.
(** All frames have [B] samples. *)
Definition frames_ok {A} (B : nat) (inp : list (list R * list R * A)) : Prop :=
  forall x0 x1 a, In (x0, x1, a) inp -> length x0 = B /\ length x1 = B.

(** The last [size] samples of a signal that was zero before it started. *)
Definition last_samples (size : nat) (x : list R) : nat -> R := fun n => nth n (skipn (length x) (repeat 0 size ++ x)) 0.
(** What an estimator sees of two signals that arrive frame by frame when it looks at them
    every [K] frames, the first [u] times. *)
Definition seen (size K : nat) (x z : list (list R)) (u : nat) : list ((nat -> R) * (nat -> R)) :=
  map (fun j => (last_samples size (concat (firstn (S j * K) x)), last_samples size (concat (firstn (S j * K) z)))) (seq 0 u).
