(** C96: evaluation of estimates of sampling-rate offsets. *)
From Verif Require Import Base ChunkSpec DemoEval DemoEvalFacts.
From Coq Require Import Reals Lra.
Local Open Scope R_scope.

(** The error shown for a frame is the root of a mean of squared errors whose weights fall by
    9/10 per frame into the past. *)
Theorem C96_error_weights est d k : rmse est d k ^ 2 = (9 / 10) ^ k * (est O - d) ^ 2 + sumR k (fun i => 1 / 10 * (9 / 10) ^ i * (est (k - i)%nat - d) ^ 2) /\ 0 <= rmse est d k.
Proof. split; [unfold rmse; rewrite pow2_sqrt by apply mse_pos; apply mse_weights | apply sqrt_pos]. Qed.
(** The error shown for a frame lies between the smallest and the largest error made up to
    that frame. *)
Theorem C96_error_bounds est d k lo hi : 0 <= lo -> (forall j, (j <= k)%nat -> lo <= Rabs (est j - d) <= hi) -> lo <= rmse est d k <= hi.
Proof.
  intros Hl H. assert (Hh : 0 <= hi) by (pose proof (H O ltac:(lia)); pose proof (Rabs_pos (est O - d)); lra).
  assert (G : lo ^ 2 <= mse est d k <= hi ^ 2).
  { induction k as [|k IH]; cbn [mse].
    - pose proof (H O ltac:(lia)) as [A B]. split; [apply abs_sq_ge; assumption | apply abs_sq; exact B].
    - pose proof (IH (fun j Hj => H j ltac:(lia))) as I. pose proof (H (S k) ltac:(lia)) as [A B]. pose proof (abs_sq_ge _ _ Hl A). pose proof (abs_sq _ _ B). lra. }
  unfold rmse. split.
  - rewrite <- (sqrt_pow2 lo Hl). apply sqrt_le_1_alt. apply G.
  - rewrite <- (sqrt_pow2 hi Hh). apply sqrt_le_1_alt. apply G.
Qed.
(** It forgets: once the estimates are within [b] of the offset, the excess of the squared
    error is multiplied by at most 9/10 per frame. *)
Theorem C96_error_forgets est d m b : 0 <= b -> (forall j, (m < j)%nat -> Rabs (est j - d) <= b) ->
  forall i, rmse est d (m + i) ^ 2 <= (9 / 10) ^ i * rmse est d m ^ 2 + b ^ 2.
Proof.
  intros Hb H i. unfold rmse. rewrite !pow2_sqrt by apply mse_pos.
  assert (G : mse est d (m + i) <= (9 / 10) ^ i * mse est d m + (1 - (9 / 10) ^ i) * b ^ 2).
  { induction i as [|i IH]; [rewrite Nat.add_0_r; cbn [pow]; lra|]. rewrite Nat.add_succ_r. cbn [mse pow]. pose proof (abs_sq _ _ (H (S (m + i)) ltac:(lia))). lra. }
  pose proof (Rmult_le_pos _ _ (pow_le (9 / 10) i ltac:(lra)) (sq_pos b)). lra.
Qed.

(** With frames of 2048 samples the settling time is the start of the last frame whose error
    exceeds 1 ppm; it is -1 if there is none. *)
Theorem C96_settling_time n est d fs t : 0 < fs -> settling_time n est d fs = t ->
  (t = -1 /\ forall k, (k < n)%nat -> rmse est d k <= 1) \/
  (exists j, (j < n)%nat /\ t = INR j * 2048 / fs /\ 1 < rmse est d j /\ forall k, (j < k < n)%nat -> rmse est d k <= 1).
Proof.
  intros Hf <-. unfold settling_time. pose proof (last_above_spec est d n) as H. destruct (last_above est d n) as [j|]; [right | left].
  - exists j. destruct H as (H1 & H2 & H3). repeat split; assumption.
  - split; [reflexivity | exact H].
Qed.
(** For frames of another length it is not: the duration of 2048 samples is fixed. *)
Theorem C96_frame_length_refuted frame_len fs : frame_len <> 2048 -> 0 < fs -> exists n est d,
  1 < rmse est d 1 /\ (forall k, (1 < k < n)%nat -> rmse est d k <= 1) /\ (1 < n)%nat /\ settling_time n est d fs <> INR 1 * frame_len / fs.
Proof.
  intros Hl Hf. exists 2%nat, (fun _ => 2), 0. assert (A : forall k, rmse (fun _ => 2) 0 k = 2).
  { intros k. apply Rle_antisym; apply (C96_error_bounds (fun _ => 2) 0 k 2 2); try lra; intros j _; rewrite Rminus_0_r, Rabs_right; lra. }
  split; [rewrite A; lra|]. split; [intros k Hk; lia|]. split; [lia|]. unfold settling_time. cbn [last_above]. rewrite A. destruct (Rlt_dec 1 2) as [_|H]; [|lra].
  intros E. apply Hl. unfold Rdiv in E. apply Rmult_eq_reg_r in E; [cbn in E; lra|]. apply Rinv_neq_0_compat. lra.
Qed.
(** The ratio is computed exactly if the error exceeds 1 ppm at some frame and at least
    8192 samples are left from the last such frame (counted in 2048 samples) on. *)
Theorem C96_ratio_computed n est d total t_max : (0 <= total)%Z ->
  (ssnr_computed n est d total t_max = true <->
   exists j, (j < n)%nat /\ 1 < rmse est d j /\ (forall k, (j < k < n)%nat -> rmse est d k <= 1) /\ (Z.of_nat j * 2048 + 8192 <= Z.min t_max total)%Z).
Proof.
  intros Ht. unfold ssnr_computed. pose proof (last_above_spec est d n) as H. change (2 ^ 13)%Z with 8192%Z. destruct (last_above est d n) as [j|].
  - destruct H as (H1 & H2 & H3). rewrite Z.leb_le. split.
    + intros E. exists j. repeat split; try assumption. lia.
    + intros (j' & G1 & G2 & G3 & G4). assert (j' = j). { destruct (Nat.lt_trichotomy j j') as [L|[L|L]]; [pose proof (H3 j' ltac:(lia)); lra | congruence | pose proof (G3 j ltac:(lia)); lra]. } subst j'. lia.
  - split; [discriminate|]. intros (j & G1 & G2 & _). pose proof (H j G1). lra.
Qed.
(** As the code stands, none is computed for estimates that are good from the first frame
    on, however long the signal. *)
Theorem C96_good_estimates_refuted n est d total t_max : (forall k, (k < n)%nat -> Rabs (est k - d) <= 1) -> ssnr_computed n est d total t_max = false.
Proof.
  intros H. unfold ssnr_computed. pose proof (last_above_spec est d n) as S. destruct (last_above est d n) as [j|]; [|reflexivity]. destruct S as (S1 & S2 & _).
  exfalso. assert (rmse est d j <= 1); [|lra]. apply (C96_error_bounds est d j 0 1); [lra|]. intros i Hi. split; [apply Rabs_pos | apply H; lia].
Qed.
(** The residual time offset is, if the estimate used at the end is the true offset, the
    drift (in samples) of a signal that was corrected with the estimates up to then. *)
Theorem C96_residual_offset n est d limit frame_len : (0 < n)%nat -> (0 < limit)%Z ->
  let km := Z.to_nat (Z.min (Z.of_nat n - 1) (limit - 1)) in est km = d ->
  residual_offset n est limit frame_len = INR km * frame_len * d / 10 ^ 6 - sumR km (fun k => frame_len * est k / 10 ^ 6).
Proof.
  intros Hn Hl km Hd. unfold residual_offset. assert (E : Z.to_nat (last_frame n limit) = km) by (unfold last_frame, km; destruct (Z.ltb_spec (Z.of_nat n) limit); f_equal; lia).
  rewrite E, Hd. clear E Hd. generalize km. intros m. assert (G : sumR m (fun k => d - est k) = INR m * d - sumR m est) by (induction m as [|m IH]; [cbn; lra | rewrite S_INR; cbn [sumR]; rewrite IH; lra]).
  rewrite G. assert (G2 : sumR m (fun k => frame_len * est k / 10 ^ 6) = frame_len * sumR m est / 10 ^ 6) by (clear G; induction m as [|m IH]; [cbn [sumR]; field | cbn [sumR]; rewrite IH; field]).
  rewrite G2. field.
Qed.

Example C96_ex : let est := fun k => match k with O => 5 | 1%nat => 3 | _ => 0 end in
  mse est 0 1 = 234 / 10 /\ settling_time 2 est 0 16000 = INR 1 * 2048 / 16000 /\ ssnr_computed 2 est 0 16000 16000 = true /\ residual_offset 3 est 3 1000 = - 8 / 1000.
Proof.
  cbv zeta. set (est := fun k => _). assert (M : mse est 0 1 = 234 / 10) by (cbn; lra). split; [exact M|].
  assert (R1 : 1 < rmse est 0 1). { unfold rmse. rewrite M. rewrite <- sqrt_1 at 1. apply sqrt_lt_1_alt. lra. }
  unfold settling_time, ssnr_computed. cbn [last_above]. destruct (Rlt_dec 1 (rmse est 0 1)) as [_|H]; [|lra]. split; [reflexivity|]. split; [reflexivity|].
  unfold residual_offset. replace (Z.to_nat (last_frame 3 3)) with 2%nat by reflexivity. cbn [sumR]. unfold est. field.
Qed.

Print Assumptions C96_error_weights.
Print Assumptions C96_error_bounds.
Print Assumptions C96_error_forgets.
Print Assumptions C96_settling_time.
Print Assumptions C96_frame_length_refuted.
Print Assumptions C96_ratio_computed.
Print Assumptions C96_good_estimates_refuted.
Print Assumptions C96_residual_offset.
