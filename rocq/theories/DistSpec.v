(** Specification vocabulary for the time-domain filters of few-samples broadcasts (C67). *)
From Verif Require Import Base Sched Buffers ChunkSpec Cx Online OnlineSpec OutSpec.
From Coq Require Import Reals.
Local Open Scope R_scope.

(** [g] is the real impulse response of [2 q] samples of the filter [w]: its spectrum is,
    bin by bin, what the filter multiplies with. *)
Definition impulse (q : nat) (w : list cx) (g : nat -> R) : Prop :=
  forall b, (b <= q)%nat -> dft (2 * q) (fun m => cr (g m)) b = real_at q b (conj (nth b w czero)).

(** Correlation of the two windows at lag [d]. *)
Definition window_corr (h f : list R) (d : Z) : R := sumR (length f) (fun i => nth i f 0 * sample 0 h (Z.of_nat i + d)).

(** Element [j mod n] of a periodic sequence. *)
Definition periodic (n : nat) (g : nat -> R) (j : Z) : R := g (Z.to_nat (j mod Z.of_nat n)).

(** Response at lag [j] of the filter that approximates, in the time domain, windowed
    filtering of frames with the impulse response [g] and hop [Ns]. *)
Definition response (h f : list R) (Ns n : nat) (g : nat -> R) (j : Z) : R :=
  periodic n g j * (window_corr h f (j + 1) / INR Ns).

(** Sample [n] of a signal of which only the [N] samples before [e] are known. *)
Definition known (N : nat) (e : Z) (col : list R) (n : Z) : R :=
  if ((e - Z.of_nat N <=? n) && (n <? e))%Z%bool then sample 0 col n else 0.

(** Sample [n] of the sum over the sensors of node [k] of their signals, filtered with the
    responses [v] (sensor, lag), lags from [- N] to [N - 2], as far as known at sample [e]. *)
Definition fused_sample (y : list (list (list R))) (k N : nat) (v : nat -> Z -> R) (e n : Z) : R :=
  sumR (length (nth k y [])) (fun ch => sumR (2 * N - 1) (fun i =>
    let j := (Z.of_nat i - Z.of_nat N)%Z in v ch j * known N e (nth ch (nth k y []) []) (n - j))).

(** Broadcasts of node [k]. *)
Definition is_bc (k : nat) (te : Z * (nat * evtype)) : bool :=
  match snd (snd te) with Bc => Nat.eqb (fst (snd te)) k | _ => false end.
