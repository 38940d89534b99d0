(** C72: sampling frequencies inferred from time stamps, and the frames taken with them. *)
From Verif Require Import Base BaseFacts Clock ClockSpec ClockFacts.
From Coq Require Import Reals Lra Psatz.
Local Open Scope R_scope.

(** Uniform time stamps are accepted; the frequency is right within 51 ppm and half a
    thousandth of a hertz. *)
Theorem C72_frequency_within f n : / 10 ^ 4 < f -> (2 <= n)%nat ->
  exists fs, infer_fs (stamps f n) = Ok fs /\ Rabs (fs - f) <= f * (51 / 1000000) + 1 / 2000.
Proof.
  intros Hf Hn. assert (F0 : 0 < f) by (pose proof (Rinv_0_lt_compat _ (pow10_pos 4)); lra). set (p := precision (diff (stamps f n))).
  exists (np_round 3 (1 / np_round p (1 / f))). split; [now apply stamps_infer|]. set (u := np_round p (1 / f)).
  assert (Dp : 0 < 1 / f) by (apply Rdiv_lt_0_compat; lra). assert (Df : 1 / f * f = 1) by (field; lra).
  assert (M : mean (diff (stamps f n)) = 1 / f) by (rewrite mean_diff, stamps_average by (rewrite ?stamps_length; lia || lra); reflexivity).
  assert (P4 : 10 ^ 4 = 10000) by ring. assert (D4 : 1 / f < 10 ^ 4).
  { apply Rmult_lt_reg_r with f; [exact F0|]. rewrite Df. apply (Rmult_lt_compat_r (10 ^ 4)) in Hf; [|lra]. rewrite Rinv_l in Hf by lra. lra. }
  destruct (precision_spec (diff (stamps f n)) ltac:(rewrite M; lra)) as [_ Q]. rewrite M in Q. fold p in Q.
  pose proof (np_round_err p (1 / f)) as E. fold u in E. apply abs_le_inv in E. assert (U : 1 / f * (1 - / 20000) <= u <= 1 / f * (1 + / 20000)) by (rewrite P4 in Q; unfold Rdiv in *; lra).
  assert (U0 : 0 < u) by lra.
  assert (V : f * (1 - 51 / 1000000) <= 1 / u <= f * (1 + 51 / 1000000)).
  { split; apply Rmult_le_reg_r with u; try exact U0; replace (1 / u * u) with 1 by (field; lra).
    - apply Rle_trans with (f * (1 - 51 / 1000000) * (1 / f * (1 + / 20000))); [apply Rmult_le_compat_l; [apply Rmult_le_pos; lra|lra]|]. replace (f * (1 - 51 / 1000000) * (1 / f * (1 + / 20000))) with ((1 - 51 / 1000000) * (1 + / 20000) * (1 / f * f)) by ring. rewrite Df. lra.
    - apply Rle_trans with (f * (1 + 51 / 1000000) * (1 / f * (1 - / 20000))); [|apply Rmult_le_compat_l; [apply Rmult_le_pos; lra|lra]]. replace (f * (1 + 51 / 1000000) * (1 / f * (1 - / 20000))) with ((1 + 51 / 1000000) * (1 - / 20000) * (1 / f * f)) by ring. rewrite Df. lra. }
  pose proof (np_round_err 3 (1 / u)) as E3. apply abs_le_inv in E3. replace (1 / 2 / 10 ^ 3) with (1 / 2000) in E3 by field. apply Rabs_le. lra.
Qed.
Example C72_ex_frequency : exists fs, infer_fs (stamps 12345 1000) = Ok fs /\ Rabs (fs - 12345) <= 12345 * (51 / 1000000) + 1 / 2000.
Proof. apply C72_frequency_within; [cbn; lra|lia]. Qed.

(** Clock jitter is detected above a ten-thousandth of the average interval. *)
Theorem C72_jitter_detected t fs : infer_fs t = Ok fs -> average_interval t < 10 ^ 4 ->
  forall i j, (S i < length t)%nat -> (S j < length t)%nat -> Rabs (interval t i - interval t j) <= average_interval t / 10 ^ 4.
Proof.
  intros H Ha i j Hi Hj. destruct (infer_ok t fs H) as (L & A & r & R & _). destruct (precision_spec (diff t)) as [_ Q]; [rewrite mean_diff by lia; lra|]. rewrite mean_diff in Q by lia.
  pose proof (np_round_err (precision (diff t)) (interval t i)) as E1. pose proof (np_round_err (precision (diff t)) (interval t j)) as E2. rewrite R in E1, E2 by assumption.
  apply abs_le_inv in E1, E2. unfold Rdiv in E1, E2. apply Rabs_le. lra.
Qed.
Example C72_ex_jitter : infer_fs [0; 1 / 1000; 3 / 1000] = Err ValueError.
Proof.
  destruct (infer_fs [0; 1 / 1000; 3 / 1000]) as [fs|e] eqn:E.
  - exfalso. pose proof (C72_jitter_detected _ _ E ltac:(unfold average_interval; cbn; lra) 1%nat 0%nat ltac:(cbn; lia) ltac:(cbn; lia)) as H.
    unfold interval, average_interval in H. cbn [nth length Nat.sub INR] in H. apply abs_le_inv in H. cbn [pow] in H. lra.
  - unfold infer_fs in E. destruct (diff [0; 1 / 1000; 3 / 1000]); [congruence|]. destruct (Rle_dec _ _); [congruence|]. destruct (forallb _ _); congruence.
Qed.

(** At the time stamp of sample [n] of a clock of frequency [f], a frame taken with the
    frequency [fs] ends behind that sample by [n (1 - fs/f)], rounded up. *)
Theorem C72_frame_end f fs n : 0 < f ->
  INR n * (1 - fs / f) <= INR n - IZR (frame_end (INR n / f) fs) < INR n * (1 - fs / f) + 1.
Proof.
  intros Hf. unfold frame_end. pose proof (floor_bounds (INR n / f * fs)) as B. replace (INR n * (1 - fs / f)) with (INR n - INR n / f * fs) by (field; lra). lra.
Qed.
(** It ends with the sample if the frequency is right, and at least one sample too early,
    from the first sample on, whenever it is too low. *)
Theorem C72_frame_end_exact f n : 0 < f -> frame_end (INR n / f) f = Z.of_nat n.
Proof. intros Hf. unfold frame_end. replace (INR n / f * f) with (INR n) by (field; lra). rewrite INR_IZR_INZ. apply floor_IZR. Qed.
Theorem C72_frame_end_late f fs n : 0 < f -> fs < f -> (1 <= n)%nat -> (frame_end (INR n / f) fs <= Z.of_nat n - 1)%Z.
Proof.
  intros Hf Hs Hn. pose proof (C72_frame_end f fs n Hf) as [B _]. assert (P : 0 < INR n * (1 - fs / f)).
  { apply Rmult_lt_0_compat; [apply lt_0_INR; lia|]. assert (fs / f < 1); [|lra]. apply Rmult_lt_reg_r with f; [exact Hf|]. replace (fs / f * f) with fs by (field; lra). lra. }
  assert (IZR (frame_end (INR n / f) fs) < IZR (Z.of_nat n)) by (rewrite <- INR_IZR_INZ; lra). apply lt_IZR in H. lia.
Qed.
Example C72_ex_frame_end : frame_end (INR 512 / 16000) 16000 = 512%Z /\ (frame_end (INR 512 / 16000) 15999 <= 511)%Z.
Proof. split; [apply (C72_frame_end_exact 16000 512); lra|apply (C72_frame_end_late 16000 15999 512); lra || lia]. Qed.

(** The usual frequencies 8 and 16 kHz are inferred exactly. *)
Theorem C72_nominal n : (2 <= n)%nat -> infer_fs (stamps 8000 n) = Ok 8000 /\ infer_fs (stamps 16000 n) = Ok 16000.
Proof.
  intros Hn. split.
  - rewrite (stamps_infer 8000 n 8) by (try lra; try lia; apply stamps_precision; lra || lia || (cbn; lra)). f_equal.
    rewrite (np_round_unique 8 _ 12500) by (cbn; lra). rewrite (np_round_unique 3 _ 8000000) by (cbn; lra). cbn. lra.
  - rewrite (stamps_infer 16000 n 9) by (try lra; try lia; apply stamps_precision; lra || lia || (cbn; lra)). f_equal.
    rewrite (np_round_unique 9 _ 62500) by (cbn; lra). rewrite (np_round_unique 3 _ 16000000) by (cbn; lra). cbn. lra.
Qed.

(** The inferred frequency should differ from the nominal one when there is an offset.
    At 8 kHz, offsets below 40 ppm disappear, so that simultaneous updating is not
    refused and the frames of the node fall behind by the offset times the number of
    samples. *)
Theorem C72_offset_lost_refuted eps n : 0 < eps < 4 / 100000 -> (2 <= n)%nat ->
  infer_fs (stamps (8000 * (1 + eps)) n) = Ok 8000 /\
  base_event_checks true 0 [stamps 8000 n; stamps (8000 * (1 + eps)) n] = Ok ([stamps 8000 n; stamps (8000 * (1 + eps)) n], [8000; 8000]) /\
  forall m, INR m * (eps / (1 + eps)) <= INR m - IZR (frame_end (INR m / (8000 * (1 + eps))) 8000).
Proof.
  intros He Hn.
  assert (E : infer_fs (stamps (8000 * (1 + eps)) n) = Ok 8000).
  { rewrite (stamps_infer _ n 8) by (try lra; try lia; apply stamps_precision; lra || lia || (cbn; lra)). f_equal.
    rewrite (np_round_unique 8 _ 12500).
    - rewrite (np_round_unique 3 _ 8000000) by (cbn; lra). cbn. lra.
    - replace (1 / (8000 * (1 + eps)) * 10 ^ 8) with (12500 / (1 + eps)) by (cbn; field; lra).
      split; apply Rmult_lt_reg_r with (1 + eps); try lra; replace (12500 / (1 + eps) * (1 + eps)) with 12500 by (field; lra); lra. }
  split; [exact E|split].
  - unfold base_event_checks, ensure_shortfat. cbn [nth length]. rewrite stamps_length. destruct (Nat.ltb_spec n 2); [lia|]. cbn [mapM bind]. rewrite E, (proj1 (C72_nominal n Hn)). cbn [bind get nth_error forallb].
    destruct (Req_EM_T 8000 8000); [reflexivity|lra].
  - intros m. pose proof (C72_frame_end (8000 * (1 + eps)) 8000 m ltac:(lra)) as [B _]. replace (1 - 8000 / (8000 * (1 + eps))) with (eps / (1 + eps)) in B by (field; lra). exact B.
Qed.
Example C72_ex_lost : infer_fs (stamps (8000 * (1 + 2 / 100000)) 1000) = Ok 8000.
Proof. apply C72_offset_lost_refuted; [lra|lia]. Qed.

(** At 16 kHz an offset of 50 ppm is taken for 48 ppm, and at 44.1 kHz the frequency is
    wrong without any offset: all frames are at least one sample late, and the lag grows. *)
Theorem C72_rounded_refuted n : (2 <= n)%nat ->
  infer_fs (stamps (16000 * (1 + 50 / 1000000)) n) = Ok (16000768 / 1000) /\
  infer_fs (stamps 44100 n) = Ok (44099488 / 1000) /\
  forall m, (1 <= m)%nat ->
    (frame_end (INR m / (16000 * (1 + 50 / 1000000))) (16000768 / 1000) <= Z.of_nat m - 1)%Z /\
    (frame_end (INR m / 44100) (44099488 / 1000) <= Z.of_nat m - 1)%Z /\ INR m * (11 / 1000000) <= INR m - IZR (frame_end (INR m / 44100) (44099488 / 1000)).
Proof.
  intros Hn. split; [|split].
  - rewrite (stamps_infer _ n 9) by (try lra; try lia; apply stamps_precision; lra || lia || (cbn; lra)). f_equal.
    rewrite (np_round_unique 9 _ 62497) by (cbn; lra). rewrite (np_round_unique 3 _ 16000768) by (cbn; lra). cbn. lra.
  - rewrite (stamps_infer _ n 9) by (try lra; try lia; apply stamps_precision; lra || lia || (cbn; lra)). f_equal.
    rewrite (np_round_unique 9 _ 22676) by (cbn; lra). rewrite (np_round_unique 3 _ 44099488) by (cbn; lra). cbn. lra.
  - intros m Hm. split; [|split]; try (apply C72_frame_end_late; lra || lia).
    pose proof (C72_frame_end 44100 (44099488 / 1000) m ltac:(lra)) as [B _]. pose proof (pos_INR m). lra.
Qed.

(** Jitter: intervals far closer than the tolerance are refused if they lie on both sides
    of a rounding threshold, however small the difference. *)
Theorem C72_no_jitter_refuted eta : 0 < eta -> exists t, length t = 3%nat /\
  Rabs (interval t 0 - interval t 1) <= eta /\ infer_fs t = Err ValueError.
Proof.
  intros He. set (h := Rmin (eta / 2) (/ 10 ^ 10)). assert (Hh : 0 < h <= / 10 ^ 10 /\ h <= eta / 2).
  { unfold h. pose proof (Rinv_0_lt_compat _ (pow10_pos 10)). pose proof (Rmin_l (eta / 2) (/ 10 ^ 10)). pose proof (Rmin_r (eta / 2) (/ 10 ^ 10)). split; [split; [|assumption]|assumption]. apply Rmin_glb_lt; lra. }
  set (d := 12500 / 10 ^ 8 + / 2 / 10 ^ 8). exists [0; d - h; 2 * d]. split; [reflexivity|].
  assert (Hd : d = 25001 / 200000000) by (unfold d; cbn; lra). assert (I10 : / 10 ^ 10 = / 10000000000) by (f_equal; ring). rewrite I10 in Hh.
  split; [unfold interval; cbn [nth]; replace (d - h - 0 - (2 * d - (d - h))) with (- (2 * h)) by ring; rewrite Rabs_Ropp, Rabs_right; lra|].
  assert (P : precision (diff [0; d - h; 2 * d]) = 8%nat).
  { apply precision_unique; rewrite mean_diff by (cbn; lia); unfold average_interval; cbn [length Nat.sub nth INR]; cbn [pow]; lra. }
  unfold infer_fs. cbn [diff combine tl map fst snd]. cbn [diff combine tl map fst snd] in P. 
  change (map (fun p : R * R => snd p - fst p) (combine [0; d - h; 2 * d] [d - h; 2 * d])) with [d - h - 0; 2 * d - (d - h)] in *.
  destruct (Rle_dec _ _); [reflexivity|]. cbn [forallb]. rewrite P.
  rewrite (np_round_unique 8 (2 * d - (d - h)) 12501) by (cbn; lra). rewrite (np_round_unique 8 (d - h - 0) 12500) by (cbn; lra).
  destruct (Req_EM_T (12501 / 10 ^ 8) (12500 / 10 ^ 8)) as [Q|]; [exfalso; cbn in Q; lra|]. reflexivity.
Qed.

(** Rounding to the nearest integer, ties to the even one, as numpy does. *)
Theorem C72_rounding x n : rint x = n <-> Rabs (IZR n - x) < 1 / 2 \/ (Rabs (IZR n - x) = 1 / 2 /\ Z.even n = true).
Proof. exact (rint_spec x n). Qed.
Example C72_ex_rounding : rint (5 / 2) = 2%Z /\ rint (7 / 2) = 4%Z /\ rint (27 / 10) = 3%Z.
Proof.
  split; [|split]; apply C72_rounding.
  - right. split; [|reflexivity]. replace (2 - 5 / 2) with (- (1 / 2)) by lra. rewrite Rabs_Ropp, Rabs_right; lra.
  - right. split; [|reflexivity]. replace (4 - 7 / 2) with (1 / 2) by lra. rewrite Rabs_right; lra.
  - left. apply Rabs_def1; lra.
Qed.

(** Under simultaneous updating, time stamps (one column per node) are accepted exactly when
    a frequency can be inferred for every node and all the frequencies are the same.  The
    index of the reference sensor has to be that of a node. *)
Theorem C72_same_frequency_required ref cols : (length cols <= length (nth 0 cols []))%nat -> (ref < length cols)%nat ->
  forall fs, base_event_checks true ref cols = Ok (cols, fs) <->
    Forall2 (fun c f => infer_fs c = Ok f) cols fs /\ forall i j, (i < length cols)%nat -> (j < length cols)%nat -> nth i fs 0 = nth j fs 0.
Proof. exact (checks_iff ref cols). Qed.
Theorem C72_different_frequencies_refused ref cols fs i j : (length cols <= length (nth 0 cols []))%nat -> (ref < length cols)%nat ->
  Forall2 (fun c f => infer_fs c = Ok f) cols fs -> (i < length cols)%nat -> (j < length cols)%nat -> nth i fs 0 <> nth j fs 0 ->
  base_event_checks true ref cols = Err ValueError /\ base_event_checks false ref cols = Ok (cols, fs).
Proof. exact (checks_refuse ref cols fs i j). Qed.
(** A network in which the reference is a sensor whose index is no node's cannot be
    simulated with simultaneous updating: the check itself fails. *)
Theorem C72_reference_sensor_refuted ref cols fs : (length cols <= length (nth 0 cols []))%nat -> (length cols <= ref)%nat ->
  Forall2 (fun c f => infer_fs c = Ok f) cols fs -> base_event_checks true ref cols = Err IndexError.
Proof. exact (checks_ref ref cols fs). Qed.
Example C72_ex_check n : (2 <= n)%nat -> base_event_checks true 1 [stamps 8000 n; stamps 16000 n] = Err ValueError /\
  base_event_checks true 1 [stamps 8000 n; stamps 8000 n] = Ok ([stamps 8000 n; stamps 8000 n], [8000; 8000]) /\
  base_event_checks true 2 [stamps 8000 n; stamps 8000 n] = Err IndexError.
Proof.
  intros Hn. destruct (C72_nominal n Hn) as [N1 N2]. pose proof (stamps_length 8000 n) as L1. pose proof (stamps_length 16000 n) as L2.
  set (a := stamps 8000 n) in *. set (b := stamps 16000 n) in *. clearbody a b. split; [|split].
  - apply (C72_different_frequencies_refused 1 [a; b] [8000; 16000] 0 1); cbn [length nth]; try lia; [|lra]. constructor; [exact N1|]. constructor; [exact N2|constructor].
  - apply (C72_same_frequency_required 1 [a; a]); cbn [length nth]; try lia. split; [constructor; [exact N1|]; constructor; [exact N1|constructor]|]. intros [|[|i]] [|[|j]] Hi Hj; reflexivity || lia.
  - apply (C72_reference_sensor_refuted 2 [a; a] [8000; 8000]); cbn [length nth]; try lia. constructor; [exact N1|]. constructor; [exact N1|constructor].
Qed.

Print Assumptions C72_rounding.
Print Assumptions C72_same_frequency_required.
Print Assumptions C72_different_frequencies_refused.
Print Assumptions C72_reference_sensor_refuted.
Print Assumptions C72_frequency_within.
Print Assumptions C72_jitter_detected.
Print Assumptions C72_frame_end.
Print Assumptions C72_frame_end_exact.
Print Assumptions C72_frame_end_late.
Print Assumptions C72_nominal.
Print Assumptions C72_offset_lost_refuted.
Print Assumptions C72_rounded_refuted.
Print Assumptions C72_no_jitter_refuted.
