(** Specification vocabulary for the centralised estimates of sampling-rate offsets (C91). *)
From Verif Require Import Base Cx ChunkSpec SroComp SroSpec CohDrift CohSpec.
From Coq Require Import Reals.
Local Open Scope R_scope.

(** The nodes other than [k], in order. *)
Definition other (k j : nat) : nat := if (j <? k)%nat then j else S j.
(** What node [k] would receive if every other node sent its first sensor and node [k]
    had only its first sensor. *)
Definition seen_row (nsens : list nat) (k : nat) (row : list cx) : list cx :=
  nth (first_sensor nsens k) row czero :: map (fun j => nth (first_sensor nsens (other k j)) row czero) (seq 0 (length nsens - 1)).
Definition seen (nsens : list nat) (k : nat) (x : list Z * list (list cx)) : list Z * list (list cx) :=
  (map (fun j => nth (other k j) (fst x) 0%Z) (seq 0 (length nsens - 1)), map (seen_row nsens k) (snd x)).

(** Inputs of the expected sizes: one flag per node, spectra of [K] bins of all sensors. *)
Definition wf_centr_frame (K : nat) (nsens : list nat) (x : list Z * list (list cx)) : Prop :=
  length (fst x) = length nsens /\ length (snd x) = K /\ Forall (fun r => length r = list_sum nsens) (snd x).

Record centr_setting (c : cdpar) (Ns : R) (K : nat) (nsens : list nat) (k : nat) (l : list (list Z * list (list cx))) : Prop := {
  cset_bins : (2 <= K)%nat;
  cset_every : (0 < cd_every c)%nat;
  cset_seg : (0 < cd_seg c)%nat;
  cset_start : (cd_seg c <= cd_start c + cd_every c)%nat;
  cset_hop : 0 < Ns;
  cset_alpha : 0 <= cd_alpha c <= 1;
  cset_method : sound_method K c;
  cset_node : (k < length nsens)%nat;
  cset_sensors : Forall (fun n => (0 < n)%nat) nsens;
  cset_frames : Forall (wf_centr_frame K nsens) l
}.

(** Flags do not matter for the estimates: they are not compensated (open loop), there are
    none, or all nodes have the same number of sensors. *)
Definition flags_harmless (c : cdpar) (nsens : list nat) (l : list (list Z * list (list cx))) : Prop :=
  cd_closed c = false \/ Forall (fun x => Forall (fun f => f = 0%Z) (fst x)) l \/ exists n, nsens = repeat n (length nsens).

(** The first sensor of node [q] observes the signal of the first sensor of node [k]
    through a fixed transfer function, with a clock whose offset is [eps]. *)
Definition drifting_node (Ns : R) (K : nat) (nsens : list nat) (k q : nat) (l : list (list Z * list (list cx))) (g : nat -> cx) (eps : R) : Prop :=
  forall i b, (i < length l)%nat -> (b < K)%nat ->
    entry (spectra_at l i) b (first_sensor nsens k) <> czero /\ g b <> czero /\
    entry (spectra_at l i) b (first_sensor nsens q) =
      delayed (2 * (K - 1)) b (eps * Ns * INR i - flags_upto l q i) (g b * entry (spectra_at l i) b (first_sensor nsens k))%cx.
