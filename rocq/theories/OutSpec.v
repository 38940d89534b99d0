(** Specification vocabulary for the output signals of a run (C66). *)
From Verif Require Import Base Sched Buffers ChunkSpec Cx Online OnlineSpec.
From Coq Require Import Reals.
Local Open Scope R_scope.

(** The lowest and highest bins ([0] and [q]) of the spectrum of a real frame of [2 q]
    samples are real. *)
Definition real_at (q b : nat) (z : cx) : cx := if (Nat.eqb b 0 || Nat.eqb b q)%bool then cr (re z) else z.

(** The real frame [x] of [2 q] samples is the result of filtering the [nch] frames
    [ys] with the coefficients [w] (channel, bin): analysis window [h], and in every bin
    the inner product of the filter (conjugated) and the spectra of the channels. *)
Definition filtered (q : nat) (h : list R) (w : list (list cx)) (nch : nat) (ys : nat -> nat -> R) (x : nat -> R) : Prop :=
  forall b, (b <= q)%nat ->
    dft (2 * q) (fun m => cr (x m)) b =
    real_at q b (csum nch (fun ch => (conj (nth b (nth ch w []) czero) * dft (2 * q) (fun m => cr (nth m h 0 * ys ch m)) b)%cx)).

(** Contribution to sample [n] of a frame [v] of [N] samples that ends before sample [e]. *)
Definition placed (N : nat) (e : Z) (v : nat -> R) (n : nat) : R :=
  let b := (e - Z.of_nat N)%Z in
  if ((b <=? Z.of_nat n) && (Z.of_nat n <? e))%Z%bool then v (Z.to_nat (Z.of_nat n - b)) else 0.

(** Updates of node [k] among the events, and the sample before which the frame used
    by an update at instant [t] ends. *)
Definition is_update (k : nat) (te : Z * (nat * evtype)) : bool :=
  match snd (snd te) with Up => Nat.eqb (fst (snd te)) k | _ => false end.
Definition updates_of (k : nat) (evs : list (Z * (nat * evtype))) : list (Z * (nat * evtype)) := filter (is_update k) evs.
Definition frame_end (c : ocfg) (k : nat) (t : Z) : Z :=
  let p := o_p c in
  (t / period (nth k (o_nodes c) (mkNode 1 [] [])) - (if p_whole p then p_N p - p_Ns p else 0))%Z.

(** Frame [ch] of node [k], ending before sample [e], of [N] samples. *)
Definition frame_of (y : list (list (list R))) (k N : nat) (e : Z) (ch m : nat) : R :=
  sample 0 (nth ch (nth k y []) []) (e - Z.of_nat N + Z.of_nat m).
(** The same with, after the [nS] sensors, the frames received. *)
Definition frame_with (y : list (list (list R))) (z : list (list R)) (k N : nat) (e : Z) (ch m : nat) : R :=
  let nS := length (nth k y []) in
  if (ch <? nS)%nat then frame_of y k N e ch m else nth m (nth (ch - nS) z []) 0.

(** Sum over the first [n] events. *)
Definition sum_updates (k : nat) (evs : list (Z * (nat * evtype))) (v : nat -> Z -> R) : R :=
  sumR (length evs) (fun m => match nth_error evs m with Some te => if is_update k te then v m (fst te) else 0 | None => 0 end).

(** Frames of [2 q] samples, WOLA processing of the desired signal estimates. *)
Definition wola_setting (c : ocfg) (q : nat) : Prop :=
  (0 < q)%nat /\ p_N (o_p c) = Z.of_nat (2 * q) /\ (0 < p_Ns (o_p c))%Z /\ length (o_f c) = (2 * q)%nat /\ o_wola c = true.

(** In all bins, the coefficients are the real gains [g] of the channels. *)
Definition flat (q : nat) (w : list (list cx)) (nch : nat) (g : nat -> R) : Prop :=
  forall ch b, (ch < nch)%nat -> (b <= q)%nat -> nth b (nth ch w []) czero = cr (g ch).

(** Sum of the products of analysis and synthesis window over the [r] frames of hop [Ns]
    that contain a sample, at position [j] of the hop. *)
Definition window_sum (h f : list R) (Ns r j : nat) : R := sumR r (fun i => nth (j + i * Ns) h 0 * nth (j + i * Ns) f 0).

(** The coefficients are those of the identity for channel [ref]. *)
Definition selects (q : nat) (w : list (list cx)) (ref : nat) : Prop :=
  forall ch b, (b <= q)%nat -> nth b (nth ch w []) czero = if Nat.eqb ch ref then cone else czero.

(** Sum of the window products over the frames of node [k] that contain sample [n]. *)
Definition overlap (c : ocfg) (q k : nat) (sched : list instant) (n : nat) : R :=
  sum_updates k (flat_events sched) (fun _ t => placed (2 * q) (frame_end c k t) (fun j => nth j (o_h c) 0 * nth j (o_f c) 0) n).
