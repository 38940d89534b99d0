(** C98: SNR estimates from the microphone signals. *)
From Verif Require Import Base BaseFacts Eval EvalSpec EvalFacts SnrMix SnrMixSpec SnrMixFacts.
From Coq Require Import Reals Lra.
Local Open Scope R_scope.

(** ** From a VAD *)
(** One value for every channel, whatever the signals, if the VAD is long enough. *)
Theorem C98_vad_defined n y vad : (length y <= n)%nat -> (forall ch, In ch y -> length ch = n) -> (n <= length vad)%nat ->
  exists l, get_snr_old n y vad = Ok l /\ Forall2 (fun ch r => getSNR ch vad = Ok r) y l.
Proof.
  intros Hc Hl Hv. unfold get_snr_old. destruct (Nat.ltb_spec n (length y)); [lia|].
  assert (G : exists l, Forall2 (fun ch r => getSNR ch vad = Ok r) y l).
  { clear Hc H. induction y as [|ch y IH]; [exists []; constructor|]. destruct IH as [l Hy]; [intros; apply Hl; right; assumption|].
    destruct (getSNR_total ch vad) as [r Hr]; [rewrite (Hl ch (or_introl eq_refl)); exact Hv|]. exists (r :: l). constructor; assumption. }
  destruct G as [l G]. exists l. split; [apply mapM_ok; exact G | exact G].
Qed.
(** A gain has no influence; what follows the end of the signal in the VAD neither. *)
Theorem C98_vad_gain g x vad : g <> 0 -> (length x <= length vad)%nat -> getSNR (gain g x) vad = getSNR x vad.
Proof. exact (getSNR_gain g x vad). Qed.
Theorem C98_vad_longer x vad more : length vad = length x -> getSNR x (vad ++ more) = getSNR x vad.
Proof. intros H. rewrite (getSNR_firstn x (vad ++ more)), <- H, firstn_app, Nat.sub_diag, firstn_all, app_nil_r. reflexivity. Qed.
(** Without pauses the estimate is infinite, without speech minus infinite, as well as with
    less power during speech than in the pauses. *)
Theorem C98_vad_extremes x vad : length vad = length x -> x <> [] ->
  ((forall a, In a vad -> a = true) -> getSNR x vad = Ok PInf) /\
  ((forall a, In a vad -> a = false) -> getSNR x vad = Ok MInf) /\
  (In true vad -> In false vad -> power (during true x vad) < power (during false x vad) -> getSNR x vad = Ok MInf).
Proof.
  intros L N. assert (Nv : vad <> []) by (destruct x, vad; cbn in L; congruence).
  assert (F : firstn (length x) vad = vad) by (apply firstn_all2; lia). repeat split.
  - intros H. apply (getSNR_one x vad true); rewrite F; assumption.
  - intros H. apply (getSNR_one x vad false); rewrite F; assumption.
  - intros H1 H2 H3. rewrite getSNR_both by assumption. unfold ratio. destruct (Rlt_dec _ 0); [reflexivity | lra].
Qed.
(** As the code stands, with noise of power [n] and speech of power [s] the value is twice
    the number of decibels. *)
Theorem C98_vad_decibels_refuted x vad n s : length vad = length x -> In true vad -> In false vad ->
  power (during false x vad) = n -> power (during true x vad) = s + n -> 0 < n -> 0 < s ->
  getSNR x vad = Ok (Fin (2 * decibels (s / n))) /\ (s <> n -> getSNR x vad <> Ok (Fin (decibels (s / n)))).
Proof.
  intros L Ht Hf En Es Hn Hs. rewrite getSNR_both by assumption. rewrite En, Es. replace (s + n - n) with s by ring.
  assert (E : ratio s n = Fin (2 * decibels (s / n))).
  { unfold ratio. destruct (Rlt_dec s 0); [lra|]. destruct (Req_EM_T n 0); [lra|]. destruct (Req_EM_T s 0); [lra|]. f_equal. unfold decibels. ring. }
  rewrite E. split; [reflexivity|]. intros Hne [= C]. apply Hne. assert (D : decibels (s / n) = 0) by lra. unfold decibels, log10 in D.
  assert (T := ln10). assert (Z : ln (s / n) = 0).
  { apply (Rmult_eq_reg_r (/ ln 10)); [|apply Rinv_neq_0_compat; lra]. unfold Rdiv in D. lra. }
  assert (Q : 0 < s / n) by (apply Rdiv_lt_0_compat; assumption). rewrite <- ln_1 in Z. apply ln_inv in Z; [|assumption | lra].
  apply (Rmult_eq_compat_r n) in Z. unfold Rdiv in Z. rewrite Rmult_assoc, Rinv_l, Rmult_1_r, Rmult_1_l in Z by lra. exact Z.
Qed.
(** With a VAD that is shorter than the signal the function fails. *)
Theorem C98_vad_short_refuted x vad : (length vad < length x)%nat -> In true vad -> In false vad -> getSNR x vad = Err IndexError.
Proof.
  intros L Ht Hf. unfold getSNR. rewrite firstn_all2 by lia. rewrite count_true. assert (Pt := has_kind true vad Ht). assert (Pf := has_kind false vad Hf). assert (B := count_both vad).
  rewrite (proj2 (Nat.ltb_lt _ _) Pt). destruct (Nat.ltb_spec 0 (length vad - length (filter (fun b => Bool.eqb b true) vad))); [|lia]. cbn [andb].
  destruct (Nat.eqb_spec (length vad) (length x)); [lia | reflexivity].
Qed.

(** ** From the noise floor *)
(** The tracked power never leaves the range of the noise floor and the largest power. *)
Theorem C98_tracker_range nv alpha peak xs : 0 < nv -> 0 <= alpha <= 1 -> nv <= peak -> (forall x, In x xs -> x * x <= peak) ->
  length (sig_var nv alpha xs) = length xs /\ forall v, In v (sig_var nv alpha xs) -> nv <= v <= peak.
Proof. intros Hn Ha Hp Hx. split; [apply sig_var_len | apply sig_var_range; assumption]. Qed.
(** The trajectory has a value for every sample, minus infinity or a number; with a bounded
    signal it never exceeds the SNR at the peak. *)
Theorem C98_trajectory nv alpha peak xs : 0 < nv -> 0 <= alpha <= 1 -> nv < peak -> (forall x, In x xs -> x * x <= peak) ->
  length (node_snr nv alpha xs) = length xs /\
  forall r, In r (node_snr nv alpha xs) -> r = MInf \/ exists d, r = Fin d /\ d <= decibels ((peak - nv) / nv).
Proof.
  intros Hn Ha Hp Hx. unfold node_snr. split; [rewrite map_length; apply sig_var_len|]. intros r Hr. apply in_map_iff in Hr as (v & <- & Hv).
  destruct (sig_var_range nv alpha Hn Ha peak xs ltac:(lra) Hx v Hv) as [V1 V2]. unfold snr_at. cbv zeta. destruct (Req_EM_T (v - nv) 0); [left; reflexivity|].
  destruct (Rlt_dec (v - nv) 0); [lra|]. right. eexists. split; [reflexivity|]. unfold decibels, log10. apply Rmult_le_compat_l; [lra|].
  assert (T := ln10). apply Rmult_le_compat_r; [left; apply Rinv_0_lt_compat; exact T|].
  assert (P : 0 < (v - nv) / nv) by (apply Rdiv_lt_0_compat; lra).
  assert (Q : (v - nv) / nv <= (peak - nv) / nv) by (apply Rmult_le_compat_r; [left; apply Rinv_0_lt_compat; exact Hn | lra]).
  destruct Q as [Q|Q]; [left; apply ln_increasing; assumption | rewrite Q; right; reflexivity].
Qed.
(** For a signal of constant power the trajectory starts at minus infinity and then is the
    SNR times [1 - alpha ^ n]. *)
Theorem C98_constant_power nv alpha P xs : 0 < nv -> 0 <= alpha < 1 -> nv < P -> (forall x, In x xs -> x * x = P) ->
  forall n, (n < length xs)%nat ->
    nth n (node_snr nv alpha xs) NaN = if Nat.eqb n 0 then MInf else Fin (decibels ((1 - alpha ^ n) * ((P - nv) / nv))).
Proof.
  intros Hn Ha HP Hx n L. unfold node_snr. assert (Ll := sig_var_len nv alpha xs).
  rewrite (nth_indep _ NaN (snr_at nv 0)) by (rewrite map_length, Ll; exact L). rewrite map_nth.
  rewrite (sig_var_const nv alpha Hn ltac:(lra) P xs ltac:(lra) Hx n L). unfold snr_at. cbv zeta.
  destruct n as [|n]; cbn [Nat.eqb].
  - destruct (Req_EM_T _ 0) as [_|H]; [reflexivity|]. exfalso. apply H. cbn [pow]. ring.
  - assert (A : alpha ^ S n < 1). { cbn [pow]. assert (0 <= alpha ^ n <= 1). { split; [apply pow_le; lra|]. rewrite <- (pow1 n). apply pow_incr. lra. } assert (alpha * alpha ^ n <= alpha * 1) by (apply Rmult_le_compat_l; lra). lra. }
    replace (P - alpha ^ S n * (P - nv) - nv) with ((1 - alpha ^ S n) * (P - nv)) by ring.
    assert (Q : 0 < (1 - alpha ^ S n) * (P - nv)) by (apply Rmult_lt_0_compat; lra).
    destruct (Req_EM_T _ 0); [lra|]. destruct (Rlt_dec _ 0); [lra|]. unfold decibels. f_equal. f_equal. f_equal. unfold Rdiv. ring.
Qed.
(** Inside the signal the smoothed trajectory is that of the mean power of the [M] samples
    around. *)
Theorem C98_smoothed_inside nv alpha M xs i : 0 < nv -> 0 <= alpha <= 1 -> (0 < M)%nat -> (M / 2 <= i)%nat -> (i + (M - 1) / 2 < length xs)%nat ->
  let m := rsum (firstn M (skipn (i - M / 2) (sig_var nv alpha xs))) / INR M in
  nth i (node_snr_smoothed nv alpha M xs) NaN = if Rle_dec m nv then MInf else Fin (decibels ((m - nv) / nv)).
Proof.
  intros Hn Ha HM H1 H2 m. unfold node_snr_smoothed. assert (Ll := sig_var_len nv alpha xs). set (v := sig_var nv alpha xs) in *.
  assert (Li : (i < length v)%nat) by lia.
  rewrite (nth_indep _ NaN (snr_at_smoothed nv (smooth M v 0))) by (rewrite map_length, seq_length; exact Li).
  rewrite (map_nth (fun i => snr_at_smoothed nv (smooth M v i)) (seq 0 (length v)) 0%nat), seq_nth by exact Li. cbn [Nat.add].
  rewrite smooth_inside by lia. fold m. unfold snr_at_smoothed. cbv zeta. destruct (Rle_dec (m - nv) 0), (Rle_dec m nv); try lra; reflexivity.
Qed.
(** As the code stands, the samples missing beyond the ends count as zeros: for a signal of
    at most half a window with an SNR of 0 dB or less the smoothed trajectory is minus
    infinity throughout, though the trajectory itself is not. *)
Theorem C98_smoothed_edges_refuted nv alpha M P xs : 0 < nv -> 0 <= alpha < 1 -> (0 < M)%nat -> nv < P <= 2 * nv -> (forall x, In x xs -> x * x = P) -> (2 * length xs <= M)%nat ->
  (forall n, (0 < n < length xs)%nat -> exists d, nth n (node_snr nv alpha xs) NaN = Fin d) /\
  forall r, In r (node_snr_smoothed nv alpha M xs) -> r = MInf.
Proof.
  intros Hn Ha HM HP Hx HL. split.
  - intros n Hk. rewrite (C98_constant_power nv alpha P xs Hn Ha ltac:(lra) Hx n ltac:(lia)). destruct (Nat.eqb_spec n 0); [lia|]. eexists. reflexivity.
  - intros r Hr. unfold node_snr_smoothed in Hr. apply in_map_iff in Hr as (i & <- & _). unfold snr_at_smoothed. cbv zeta. destruct (Rle_dec _ 0) as [|H]; [reflexivity|]. exfalso. apply H.
    assert (S := smooth_le M (sig_var nv alpha xs) (2 * nv) i HM ltac:(lra)). rewrite (sig_var_len nv alpha xs) in S.
    assert (B : forall x, In x (sig_var nv alpha xs) -> x <= 2 * nv). { intros x Hv. apply (sig_var_range nv alpha Hn ltac:(lra) (2 * nv) xs ltac:(lra)); [|exact Hv]. intros y Hy. rewrite (Hx y Hy). lra. }
    specialize (S B). assert (MP : 0 < INR M) by (apply lt_0_INR; exact HM). assert (LI : 2 * INR (length xs) <= INR M) by (rewrite <- (mult_INR 2); apply le_INR; exact HL).
    assert (Q : INR (length xs) * (2 * nv) / INR M <= nv).
    { apply (Rmult_le_reg_r (INR M)); [exact MP|]. unfold Rdiv. rewrite Rmult_assoc, Rinv_l by lra. assert (2 * INR (length xs) * nv <= INR M * nv) by (apply Rmult_le_compat_r; lra). lra. }
    lra.
Qed.

(** 3 (power 9) during speech, 1 in the pauses. *)
Example C98_ex_vad : let x := [1; 3; -3; -1] in let vad := [false; true; true; false] in
  power (during false x vad) = 1 /\ power (during true x vad) = 8 + 1 /\ getSNR x vad = Ok (Fin (2 * decibels (8 / 1))).
Proof.
  cbv zeta. assert (E1 : power (during false [1; 3; -3; -1] [false; true; true; false]) = 1) by (unfold power, energy, squares; cbn; lra).
  assert (E2 : power (during true [1; 3; -3; -1] [false; true; true; false]) = 8 + 1) by (unfold power, energy, squares; cbn; lra).
  split; [exact E1|]. split; [exact E2|]. apply (C98_vad_decibels_refuted _ _ 1 8); try assumption; try lra; cbn; auto.
Qed.
(** Power 2 with noise floor 1: 0 dB is approached. *)
Example C98_ex_constant : nth 1 (node_snr 1 (1 / 2) (repeat (sqrt 2) 4)) NaN = Fin (decibels (1 / 2)) /\ (forall r, In r (node_snr_smoothed 1 (1 / 2) 8 (repeat (sqrt 2) 4)) -> r = MInf).
Proof.
  assert (S : forall x, In x (repeat (sqrt 2) 4) -> x * x = 2) by (intros x H; apply repeat_spec in H as ->; apply sqrt_sqrt; lra). split.
  - rewrite (C98_constant_power 1 (1 / 2) 2) by (try lra; try exact S; cbn; lia). cbn [Nat.eqb]. f_equal. f_equal. cbn [pow]. lra.
  - apply (C98_smoothed_edges_refuted 1 (1 / 2) 8 2); try lra; try exact S; cbn; lia.
Qed.
