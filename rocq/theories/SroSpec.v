(** Specification vocabulary for the compensation of sampling-rate offsets. *)
From Verif Require Import Base Cx ChunkSpec SroComp.
From Coq Require Import Reals.
Local Open Scope R_scope.

(** a full-sample drift flag in samples; no contribution when undefined *)
Definition drift (flags : list (option R)) (q : nat) : R := match nth q flags None with Some f => f | None => 0 end.
(** shift in samples at iteration [i] of the signal with drifts [fl t] and offset
    estimates [es t] at iterations [t], for hops of [Ns] samples *)
Definition shift_at (Ns : R) (fl es : nat -> R) (i : nat) : R := sumR (S i) fl - Ns * sumR i es.
(** spectrum value at bin [b] of [N] delayed by [d] samples *)
Definition delayed (N b : nat) (d : R) (v : cx) : cx := (v * cis (- (2 * PI * INR b * d / INR N)))%cx.
(** entry of a matrix of spectra: bin [b], channel [c] *)
Definition entry (y : list (list cx)) (b c : nat) : cx := nth c (nth b y []) czero.
(** first of the sensors of node [q] *)
Definition first_sensor (nsens : list nat) (q : nat) : nat := list_sum (firstn q nsens).

(** inputs of the expected sizes: one flag and one estimate per neighbour, spectra of
    all channels; in the centralised case one per node and spectra of all sensors *)
Definition wf_in (nLoc nNeigh : nat) (i : sro_in) : Prop :=
  length (si_flags i) = nNeigh /\ length (si_est i) = nNeigh /\ Forall (fun r => length r = (nLoc + nNeigh)%nat) (si_y i).
Definition si0 : sro_in := mkSI [] [] [].
Definition wf_centr (nsens : list nat) (i : sro_in) : Prop :=
  length (si_flags i) = length nsens /\ length (si_est i) = length nsens /\ Forall (fun r => length r = list_sum nsens) (si_y i).

