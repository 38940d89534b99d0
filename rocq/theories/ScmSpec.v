(** Linear algebra vocabulary. *)
From Verif Require Import Base Cx Filt FiltSpec Scm.
From Coq Require Import Reals.
Open Scope R_scope.

(** [n x n] array Hermitian and positive semi-definite at every frequency:
    [R^H = R] and [x^H R x >= 0] for every vector. *)
Definition hermitian (n : nat) (r : tens) : Prop := forall f i j, (i < n)%nat -> (j < n)%nat -> r f j i = conj (r f i j).
Definition quad (n : nat) (r : tens) (f : nat) (x : nat -> cx) : cx :=
  csum n (fun i => csum n (fun j => conj (x i) * r f i j * x j))%cx.
Definition psd (n : nat) (r : tens) : Prop := forall f x, 0 <= re (quad n r f x) /\ im (quad n r f x) = 0.

(** Equality of the first [n] rows and columns; inverse matrices; solutions of
    linear systems. *)
Definition mat_eq (n : nat) (a b : mat) : Prop := forall i j, (i < n)%nat -> (j < n)%nat -> a i j = b i j.
Definition ident : mat := fun i j => if Nat.eqb i j then cone else czero.
Definition is_inverse (n : nat) (a b : mat) : Prop := mat_eq n (mmul n a b) ident /\ mat_eq n (mmul n b a) ident.
Definition solves (n : nat) (a : mat) (w b : vec) : Prop := forall i, (i < n)%nat -> csum n (fun j => a i j * w j)%cx = b i.

(** Result of the generalised eigenvalue decomposition of Hermitian [a] and
    positive definite [b]: [x^H a x = diag(sig)], [x^H b x = I]. *)
Definition gevd (n : nat) (a b : mat) (sig : nat -> R) (x : mat) : Prop :=
  mat_eq n (mmul n (mherm x) (mmul n a x)) (fun i j => if Nat.eqb i j then cr (sig i) else czero) /\
  mat_eq n (mmul n (mherm x) (mmul n b x)) ident.

(** Exponentially weighted correlation over a list of frames, oldest first, after
    the initial matrix [r0]: the frame that was followed by [a] others weighs
    [(1 - beta) beta^a], the initial matrix [beta^m]. *)
Definition no_frame : obs := (0%nat, fun _ _ => czero).
Definition corr (y : obs) : tens := fun f i j => (cr (/ INR (fst y)) * (snd y f i * conj (snd y f j)))%cx.
Definition weighted (beta : R) (r0 : tens) (ys : list obs) : tens :=
  fun f i j => (cr (beta ^ length ys) * r0 f i j +
    csum (length ys) (fun r => cr ((1 - beta) * beta ^ (length ys - 1 - r)) * corr (nth r ys no_frame) f i j))%cx.
(** The frames of one estimator for which its VAD decision is [b], oldest first. *)
Definition pick (wh : which) (b : bool) (us : list (uevent obs)) : list obs :=
  map (frame wh) (filter (fun u => Bool.eqb (vad wh u) b) us).
Fixpoint sum_n (n : nat) (f : nat -> R) : R := match n with O => 0 | S n => sum_n n f + f n end.
(** The same, started from the first frame if there is one. *)
Definition basis (beta : R) (r0 : tens) (ys : list obs) : tens :=
  match ys with [] => r0 | y :: ys' => weighted beta (corr y) ys' end.
