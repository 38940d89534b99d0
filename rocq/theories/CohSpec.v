(** Specification vocabulary for the estimation of sampling-rate offsets (C71). *)
From Verif Require Import Base Cx ChunkSpec SroComp SroSpec CohDrift.
From Coq Require Import Reals.
Local Open Scope R_scope.

(** A spectrum of [2 (K - 1)] bins, the second half for negative frequencies, whose phase
    is, in every bin, that of a delay between [lo] and [hi] samples (positive exponent). *)
Definition drift_within (K : nat) (lo hi : R) (v : list cx) : Prop :=
  length v = (2 * (K - 1))%nat /\
  forall n, (n < 2 * (K - 1))%nat -> exists a t, 0 < a /\ lo <= t <= hi /\
    nth n v czero = (cr a * cis (PI / INR (K - 1) * (if (n <? K - 1)%nat then INR n else - INR (2 * (K - 1) - n)) * t))%cx.

(** A search that finds the time lag of such spectra. *)
Definition locates (K : nat) (s : list cx -> R) : Prop :=
  forall lo hi v, -1 < lo -> hi < 1 -> drift_within K lo hi v -> lo <= - s v <= hi.
Definition sound_method (K : nat) (c : cdpar) : Prop := match cd_search c with Some s => locates K s | None => True end.

(** Gain of the estimators: estimate over offset. *)
Definition ls_gain (K : nat) : R := 2 * INR K * (INR K + 1) / ((INR K - 1) * (2 * INR K - 1)).
Definition gain (K : nat) (c : cdpar) : R := match cd_search c with Some _ => 1 | None => ls_gain K end.

(** Inputs of a run of the expected sizes: flags of [nNeigh] neighbours, spectra of [K]
    bins and of all channels. *)
Definition wf_frame (K nLoc nNeigh : nat) (p : list Z * list (list cx)) : Prop :=
  length (fst p) = nNeigh /\ length (snd p) = K /\ Forall (fun r => length r = (nLoc + nNeigh)%nat) (snd p).

(** Spectra and flag of neighbour [q] at iteration [i] of a run. *)
Definition spectra_at (l : list (list Z * list (list cx))) (i : nat) : list (list cx) := snd (nth i l ([], [])).
Definition flag_at (l : list (list Z * list (list cx))) (q i : nat) : Z := nth q (fst (nth i l ([], []))) 0%Z.
(** Sum of the flags up to iteration [i] included *)
Definition flags_upto (l : list (list Z * list (list cx))) (q i : nat) : R := sumR (S i) (fun t => IZR (flag_at l q t)).

(** Channel of neighbour [q]: the signal of the first local sensor, through a fixed
    transfer function [g], delayed by [d i] samples at iteration [i]. *)
Definition delayed_copy (K nLoc : nat) (l : list (list Z * list (list cx))) (q : nat) (g : nat -> cx) (d : nat -> R) : Prop :=
  forall i b, (i < length l)%nat -> (b < K)%nat ->
    entry (spectra_at l i) b 0 <> czero /\ g b <> czero /\
    entry (spectra_at l i) b (nLoc + q) = delayed (2 * (K - 1)) b (d i) (g b * entry (spectra_at l i) b 0)%cx.

(** Residual and estimate of a state for neighbour [q] at iteration [i]. *)
Definition residual_of (st : cdst) (q i : nat) : R := nth q (nth i (cs_res st) []) 0.
Definition estimate_of (st : cdst) (q i : nat) : R := nth q (nth i (cs_est st) []) 0.

(** Iterations at which an estimation takes place: every [estEvery] iterations from
    [startAfterNups]. *)
Definition instant (c : cdpar) (i : nat) : Prop := exists k, (1 <= k)%nat /\ i = (cd_start c + k * cd_every c)%nat.

(** Setting of the theorems. *)
Record setting (c : cdpar) (Ns : R) (K nLoc nNeigh : nat) (l : list (list Z * list (list cx))) : Prop := {
  set_bins : (2 <= K)%nat;
  set_every : (0 < cd_every c)%nat;
  set_seg : (0 < cd_seg c)%nat;
  set_start : (cd_seg c <= cd_start c + cd_every c)%nat;
  set_hop : 0 < Ns;
  set_alpha : 0 <= cd_alpha c <= 1;
  set_method : sound_method K c;
  set_local : (0 < nLoc)%nat;
  set_frames : Forall (wf_frame K nLoc nNeigh) l
}.

(** Channel of a neighbour whose clock has the offset [eps]: between two iterations the
    delay grows by [eps * Ns]; every flag is a sample left out or added by then. *)
Definition drifting (Ns : R) (K nLoc : nat) (l : list (list Z * list (list cx))) (q : nat) (g : nat -> cx) (eps : R) : Prop :=
  delayed_copy K nLoc l q g (fun i => eps * Ns * INR i - flags_upto l q i).

(** Channel of neighbour [q] at iteration [i] after compensation: still [r] samples late. *)
Definition remaining (K nLoc : nat) (l : list (list Z * list (list cx))) (st : cdst) (q : nat) (g : nat -> cx) (i : nat) (r : R) : Prop :=
  forall b, (b < K)%nat -> entry (nth i (cs_cmp st) []) b (nLoc + q) = delayed (2 * (K - 1)) b r (g b * entry (spectra_at l i) b 0)%cx.
