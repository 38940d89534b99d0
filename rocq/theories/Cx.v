(** Complex numbers as pairs of reals, finite sums, and the discrete Fourier
    transform of numpy ([np.fft.fft], [np.fft.ifft]). *)
From Verif Require Import Base.
From Coq Require Import Reals.
Open Scope R_scope.

Record cx := mkC { re : R; im : R }.

Declare Scope cx_scope.
Delimit Scope cx_scope with cx.
Bind Scope cx_scope with cx.

Definition cadd (a b : cx) : cx := mkC (re a + re b) (im a + im b).
Definition cmul (a b : cx) : cx := mkC (re a * re b - im a * im b) (re a * im b + im a * re b).
Definition copp (a : cx) : cx := mkC (- re a) (- im a).
Definition csub (a b : cx) : cx := cadd a (copp b).
Definition conj (a : cx) : cx := mkC (re a) (- im a).
Definition cr (x : R) : cx := mkC x 0.
Definition czero : cx := cr 0.
Definition cone : cx := cr 1.
(** [1 / a] *)
Definition cinv (a : cx) : cx := mkC (re a / (re a * re a + im a * im a)) (- im a / (re a * re a + im a * im a)).
(** [e^(i x)]. *)
Definition cis (x : R) : cx := mkC (cos x) (sin x).

Infix "+" := cadd : cx_scope.
Infix "*" := cmul : cx_scope.
Infix "-" := csub : cx_scope.

(** Sum of the [f i], [i < n]. *)
Fixpoint csum (n : nat) (f : nat -> cx) : cx :=
  match n with O => czero | S n' => (csum n' f + f n')%cx end.

(** [np.fft.fft] of [n] points: entry [k]. *)
Definition dft (n : nat) (x : nat -> cx) (k : nat) : cx :=
  csum n (fun m => (x m * cis (- (2 * PI * INR k * INR m / INR n)))%cx).

(** [np.fft.ifft] of [n] points: entry [m]. *)
Definition idft (n : nat) (X : nat -> cx) (m : nat) : cx :=
  (cr (/ INR n) * csum n (fun k => X k * cis (2 * PI * INR k * INR m / INR n)))%cx.
