(** Compensation of sampling-rate offsets (C51). *)
From Verif Require Import Base BaseFacts Buffers Centr ChunkSpec Level Cx CxFacts SroComp SroSpec SroFacts.
From Coq Require Import Reals Lra.
Local Open Scope R_scope.

(** Over a run of any length: the channels of the local sensors are never changed; the
    channel of the [q]-th neighbour is delayed by the accumulated drifts and offset
    estimates of that neighbour only.  An undefined flag asks to skip the update. *)
Theorem C51_neighbour_channels : forall nLoc nNeigh N Ns l,
  (0 < N)%nat -> Forall (wf_in nLoc nNeigh) l ->
  exists psf outs, sro_run nLoc nNeigh N Ns l = Ok (psf, outs) /\ length outs = length l /\
  forall i, (i < length l)%nat ->
    let out := nth i outs (false, []) in let inp := nth i l si0 in
    (fst out = true <-> In None (si_flags inp)) /\ length (snd out) = length (si_y inp) /\
    (forall b c, (b < length (si_y inp))%nat -> (c < nLoc)%nat -> entry (snd out) b c = entry (si_y inp) b c) /\
    (forall b q, (b < length (si_y inp))%nat -> (q < nNeigh)%nat ->
       entry (snd out) b (nLoc + q) =
       delayed N b (shift_at Ns (fun t => drift (si_flags (nth t l si0)) q) (fun t => nth q (si_est (nth t l si0)) 0) i) (entry (si_y inp) b (nLoc + q))).
Proof.
  intros nLoc nNeigh N Ns l HN Hw. destruct (sro_run_spec nLoc nNeigh N Ns l HN Hw) as (psf & outs & E & _ & Ho & _ & H).
  exists psf, outs. split; [exact E|]. split; [exact Ho|]. intros i Hi. destruct (H i Hi) as (A & B & C). cbn zeta. split; [exact A|]. split; [exact B|]. split.
  - intros b c Hb Hc. rewrite C by (assumption || lia). destruct (Nat.leb_spec nLoc c); [lia|]. unfold delayed.
    replace (- (2 * PI * INR b * 0 / INR N)) with 0 by (unfold Rdiv; ring). rewrite cis_0. apply cx_eq; cbn; ring.
  - intros b q Hb Hq. rewrite C by (assumption || lia). destruct (Nat.leb_spec nLoc (nLoc + q)); [|lia]. replace (nLoc + q - nLoc)%nat with q by lia. reflexivity.
Qed.

(** With oracle estimates the delay of neighbour [q] at iteration [i] is [i] hops of the
    relative offset, plus the drifts so far. *)
Theorem C51_oracle : forall sros neigh k Ns l q i,
  (i < length l)%nat -> (q < length neigh)%nat ->
  (forall t, (t < length l)%nat -> si_est (nth t l si0) = oracle_est sros neigh k) ->
  shift_at Ns (fun t => drift (si_flags (nth t l si0)) q) (fun t => nth q (si_est (nth t l si0)) 0) i =
  sumR (S i) (fun t => drift (si_flags (nth t l si0)) q) - INR i * Ns * ((nth (nth q neigh 0%nat) sros 0 - nth k sros 0) / 1000000).
Proof.
  intros sros neigh k Ns l q i Hi Hq H. unfold shift_at. f_equal.
  assert (E : nth q (oracle_est sros neigh k) 0 = (nth (nth q neigh 0%nat) sros 0 - nth k sros 0) * / 10 ^ 6).
  { unfold oracle_est. set (F := fun q => _). rewrite (nth_indep (map F _) 0 (F 0%nat)) by (now rewrite map_length). now rewrite map_nth. }
  rewrite (sumR_ext' i _ (fun _ => (nth (nth q neigh 0%nat) sros 0 - nth k sros 0) * / 10 ^ 6)) by (intros t Ht; rewrite H by lia; exact E).
  assert (G : forall n v, sumR n (fun _ => v) = INR n * v) by (induction n; intros v; [cbn; ring|rewrite sumS, IHn, S_INR; ring]).
  rewrite G. field.
Qed.

(** Centralised vector of node [k], sensors in node order: sensor [s] of node [q] is
    delayed by the drifts and estimates of node [q] (no drift for the node itself), if
    [q] comes before [k], or if all nodes have the same number of sensors and [s] is not
    a further sensor of the last node. *)
Theorem C51_centralised : forall nsens k N Ns l,
  (0 < N)%nat -> (k < length nsens)%nat -> Forall (fun n => (0 < n)%nat) nsens -> Forall (wf_centr nsens) l ->
  exists psf outs, sro_run_centr nsens k N Ns l = (psf, outs) /\ length outs = length l /\
  forall i, (i < length l)%nat ->
    let out := nth i outs (false, []) in let inp := nth i l si0 in
    (fst out = true <-> exists q, (q < length nsens)%nat /\ q <> k /\ nth q (si_flags inp) None = None) /\ length (snd out) = length (si_y inp) /\
    forall b q s, (b < length (si_y inp))%nat -> (q < length nsens)%nat -> (s < nth q nsens 0)%nat ->
      (q < k)%nat \/ (exists n, nsens = repeat n (length nsens)) /\ ((S q < length nsens)%nat \/ s = 0%nat \/ q = k) ->
      entry (snd out) b (first_sensor nsens q + s) =
      delayed N b (shift_at Ns (fun t => if Nat.eqb q k then 0 else drift (si_flags (nth t l si0)) q) (fun t => nth q (si_est (nth t l si0)) 0) i)
        (entry (si_y inp) b (first_sensor nsens q + s)).
Proof.
  intros nsens k N Ns l HN Hk Hpos Hw. destruct (sro_run_centr_spec nsens k N Ns l HN Hw) as (psf & outs & E & _ & Ho & _ & H).
  exists psf, outs. split; [exact E|]. split; [exact Ho|]. intros i Hi. destruct (H i Hi) as (A & B & C). cbn zeta. split; [exact A|]. split; [exact B|].
  intros b q s Hb Hq Hs Hcase. rewrite C by assumption. f_equal. unfold shift_at. f_equal. apply sumR_ext'. intros t _.
  destruct Hcase as [Hc|((n & En) & Hc)].
  - rewrite extra_centr_before by assumption. destruct (Nat.eqb_spec q k); [lia|reflexivity].
  - set (K := length nsens) in *. rewrite En in Hs |- *.
    assert (Hn : nth q (repeat n K) 0%nat = n) by (apply (repeat_spec K n), nth_In; now rewrite repeat_length).
    rewrite Hn in Hs. rewrite first_sensor_repeat by lia. rewrite extra_centr_equal by assumption.
    destruct (Nat.eqb_spec q k); [reflexivity|]. destruct (Nat.eqb_spec (S q) K), (Nat.ltb_spec 0 s); cbn [andb]; try reflexivity. lia.
Qed.

(** Otherwise the drifts go to the wrong sensors: node 0 with three sensors, node 1 with
    one.  A drift of one sample of node 1 delays the second sensor of node 0 itself, and
    not the sensor of node 1. *)
Definition wrong_in : sro_in := mkSI [Some 0; Some 1] [0; 0] [[cone; cone; cone; cone]; [cone; cone; cone; cone]].
Theorem C51_centralised_drift_refuted : exists psf outs, sro_run_centr [3; 1]%nat 0 2 1 [wrong_in] = (psf, outs) /\
  wf_centr [3; 1]%nat wrong_in /\ drift (si_flags wrong_in) 1 = 1 /\
  entry (snd (nth 0 outs (false, []))) 1 1 = delayed 2 1 1 (entry (si_y wrong_in) 1 1) /\
  entry (snd (nth 0 outs (false, []))) 1 1 <> entry (si_y wrong_in) 1 1 /\
  entry (snd (nth 0 outs (false, []))) 1 3 = entry (si_y wrong_in) 1 3.
Proof.
  assert (Hw : wf_centr [3; 1]%nat wrong_in) by (repeat constructor).
  destruct (sro_run_centr_spec [3; 1]%nat 0 2 1 [wrong_in]) as (psf & outs & E & _ & _ & _ & H); [lia|repeat constructor|].
  exists psf, outs. split; [exact E|]. split; [exact Hw|]. split; [reflexivity|].
  destruct (H 0%nat ltac:(cbn; lia)) as (_ & _ & C). cbn [nth] in C.
  pose proof (C 1%nat 0%nat 1%nat ltac:(cbn; lia) ltac:(cbn; lia) ltac:(cbn; lia)) as C1. pose proof (C 1%nat 1%nat 0%nat ltac:(cbn; lia) ltac:(cbn; lia) ltac:(cbn; lia)) as C3.
  change (first_sensor [3; 1]%nat 0 + 1)%nat with 1%nat in C1. change (first_sensor [3; 1]%nat 1 + 0)%nat with 3%nat in C3.
  assert (Ex : extra_shifts_centr [3; 1]%nat 0 (si_flags wrong_in) = [0; 1; 0; 0]) by reflexivity.
  unfold shift_at in C1, C3. cbn [sumR nth] in C1, C3. rewrite Ex in C1, C3. cbn [nth] in C1, C3.
  replace (0 + 1 - 1 * 0) with 1 in C1 by ring. replace (0 + 0 - 1 * 0) with 0 in C3 by ring.
  split; [exact C1|]. split.
  - rewrite C1. unfold delayed, entry. cbn [nth si_y wrong_in INR]. replace (2 * PI * 1 * 1 / (1 + 1)) with PI by field. intros F. apply (f_equal re) in F. cbn [re cmul cone cr cis im] in F. rewrite cos_neg, cos_PI in F. lra.
  - etransitivity; [exact C3|]. unfold delayed, entry. cbn [nth si_y wrong_in]. replace (- (2 * PI * INR 1 * 0 / INR 2)) with 0 by (unfold Rdiv; ring). rewrite cis_0. apply cx_eq; cbn; ring.
Qed.

(** Equal counts: with two sensors per node, the second sensor of the last node misses
    the drift. *)
Theorem C51_last_node_refuted : forall K k n s flags, (k < K)%nat -> S k <> K -> (s < n)%nat ->
  nth (first_sensor (repeat n K) (K - 1) + s) (extra_shifts_centr (repeat n K) k flags) 0 = if (0 <? s)%nat then 0 else drift flags (K - 1).
Proof.
  intros K k n s flags Hk Hl Hs. rewrite first_sensor_repeat, extra_centr_equal by lia. destruct (Nat.eqb_spec (K - 1) k); [lia|].
  destruct (Nat.eqb_spec (S (K - 1)) K); [reflexivity|lia].
Qed.

(** Two local sensors, two neighbours, two bins, two iterations: the second neighbour
    drifts by one sample in the first. *)
Definition ex_in (f : option R) : sro_in := mkSI [Some 0; f] [1; 2] [[cone; cone; cone; cone]; [cone; cone; cone; cone]].
Example C51_example : exists psf outs, sro_run 2 2 2 1 [ex_in (Some 1); ex_in None] = Ok (psf, outs) /\
  entry (snd (nth 0 outs (false, []))) 1 3 = mkC (-1) 0 /\ fst (nth 0 outs (false, [])) = false /\ fst (nth 1 outs (false, [])) = true.
Proof.
  destruct (C51_neighbour_channels 2 2 2 1 [ex_in (Some 1); ex_in None]) as (psf & outs & E & _ & H); [lia|repeat constructor|].
  exists psf, outs. split; [exact E|]. destruct (H 0%nat ltac:(cbn; lia)) as (A & _ & _ & D). destruct (H 1%nat ltac:(cbn; lia)) as (A' & _). cbn [nth] in *. split.
  - pose proof (D 1%nat 1%nat ltac:(cbn; lia) ltac:(lia)) as D1. change (2 + 1)%nat with 3%nat in D1. rewrite D1. unfold delayed, shift_at, entry. cbn [sumR nth si_y ex_in drift si_flags INR].
    unfold drift. cbn [si_flags ex_in nth]. replace (2 * PI * 1 * (0 + 1 - 1 * 0) / (1 + 1)) with PI by field. apply cx_eq; cbn [re im cmul cone cr cis]; rewrite cos_neg, sin_neg, cos_PI, sin_PI; ring.
  - split; [destruct (fst (nth 0 outs (false, []))); [|reflexivity]; exfalso; destruct A as (A & _); specialize (A eq_refl); cbn in A; intuition discriminate|].
    apply A'. cbn. tauto.
Qed.

Print Assumptions C51_neighbour_channels.
Print Assumptions C51_oracle.
Print Assumptions C51_centralised.
Print Assumptions C51_centralised_drift_refuted.
Print Assumptions C51_last_node_refuted.
