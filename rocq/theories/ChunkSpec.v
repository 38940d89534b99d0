(** Specification vocabulary for sample blocks and linear convolution. *)
From Verif Require Import Base.
From Coq Require Import Reals.
Open Scope R_scope.

(** Sample [i] of a signal extended by zero on both sides. *)
Definition sample {A} (zero : A) (y : list A) (i : Z) : A :=
  if (i <? 0)%Z then zero else nth (Z.to_nat i) y zero.

(** Sum of the [f i], [i < n]. *)
Fixpoint sumR (n : nat) (f : nat -> R) : R :=
  match n with O => 0 | S n' => sumR n' f + f n' end.

(** Sample [n] of the linear convolution of [a] and [b]. *)
Definition conv (a b : list R) (n : Z) : R :=
  sumR (length a) (fun i => nth i a 0 * sample 0 b (n - Z.of_nat i)).
