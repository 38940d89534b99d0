(** Theorems about the assembly of scenarios (C82). *)
From Verif Require Import Base BaseFacts Level LevelSpec LevelFacts LevelFacts3 SigGen SigGenSpec SigGenFacts Scene SceneSpec SceneFacts SceneFacts2 SceneFacts3.
From Coq Require Import QArith Reals Lra.
Local Open Scope R_scope.

(** Responses computed for the whole room are handed to the right node, sensor and kind
    of source. *)
Theorem C82_responses ms n_d n_n rir k m j : length rir = list_sum ms -> (forall r, In r rir -> length r = (n_d + n_n)%nat) -> (k < length ms)%nat -> (m < nth k ms 0)%nat ->
  let row := nth (before ms k + m) rir [] in
  let d := responses (split_desired (sensor_map ms) (length ms) n_d rir) k m in
  let n := responses (split_noise (sensor_map ms) (length ms) n_n rir) k m in
  length d = n_d /\ ((j < n_d)%nat -> nth j d [] = nth j row []) /\
  ((0 < n_n)%nat -> length n = n_n /\ ((j < n_n)%nat -> nth j n [] = nth (n_d + j) row [])).
Proof.
  intros HL Hr Hk Hm row d n. destruct (split_ok ms n_d n_n rir k m HL Hr Hk Hm) as (D & N & _). fold d in D. fold n in N. fold row in D, N.
  assert (B := before_le ms k Hk). assert (I : length row = (n_d + n_n)%nat) by (apply Hr, nth_In; lia). rewrite D. split; [rewrite firstn_length; lia|]. split.
  - intros Hj. rewrite <- (firstn_skipn n_d row) at 2. rewrite app_nth1; [reflexivity|]. rewrite firstn_length. lia.
  - intros Hn. rewrite (N Hn). split; [rewrite skipn_length; lia|]. intros Hj. rewrite <- (firstn_skipn n_d row) at 2. rewrite app_nth2; rewrite firstn_length; [f_equal; lia|lia].
Qed.
(** Without noise sources every sensor is nevertheless given "noise" responses: those of
    the desired sources. *)
Theorem C82_no_noise_sources_refuted : exists ms n_d rir, (forall r, In r rir -> length r = n_d) /\ length rir = list_sum ms /\
  length (responses (split_noise (sensor_map ms) (length ms) 0 rir) 0 0) = 1%nat.
Proof. exists [1%nat], 1%nat, [[[5]]]. split; [intros r [<-|[]]; reflexivity|]. split; reflexivity. Qed.

(** What the sensors receive: every desired source through its own response, added up;
    likewise the noise sources, each scaled by a positive gain; no noise at all without
    noise sources. *)
Theorem C82_wet_signals b snr ms ref efact nw len irs_d irs_n ds ns sc :
  (forall x, In x ds -> length x = len) -> (forall n, In n ns -> length n = len) -> complete (length ds) irs_d -> complete (length ns) irs_n ->
  build_scenario b snr ms ref efact nw len irs_d irs_n ds ns = Ok sc ->
  (forall k m, (k < length irs_d)%nat -> (m < length (nth k irs_d []))%nat -> nth m (nth k (sc_speech sc) []) [] = samples len (received (responses irs_d k m) ds)) /\
  (ns = [] -> sc_noise sc = None) /\
  (ns <> [] -> exists ns' w, sc_noise sc = Some w /\ length ns' = length ns /\
    (forall i, (i < length ns)%nat -> exists g, 0 < g /\ nth i ns' [] = map (Rmult g) (nth i ns [])) /\
    forall k m, (k < length irs_n)%nat -> (m < length (nth k irs_n []))%nat -> nth m (nth k w []) [] = samples len (received (responses irs_n k m) ns')).
Proof.
  intros Hd Hn Cd Cn H. destruct (build_parts _ _ _ _ _ _ _ _ _ _ _ _ H) as (S & _ & N0 & N1).
  assert (G : forall xs irs w, (forall x, In x xs -> length x = len) -> complete (length xs) irs -> wet_signals len xs irs = Ok w ->
    forall k m, (k < length irs)%nat -> (m < length (nth k irs []))%nat -> nth m (nth k w []) [] = samples len (received (responses irs k m) xs)).
  { intros xs irs w Hx Hc Hw k m Hk Hm. rewrite (wet_signals_ok len xs irs Hx Hc) in Hw. injection Hw as <-. rewrite (nth_map_len _ irs k []) by exact Hk. rewrite (nth_map_len _ _ m []) by exact Hm. reflexivity. }
  split; [exact (G ds irs_d _ Hd Cd S)|]. split; [exact N0|]. intros Hne. destruct (N1 Hne) as (ns' & w & E1 & E2 & E3). exists ns', w. split; [exact E3|].
  destruct (levels_length _ _ _ _ _ _ _ _ E1) as [L V]. split; [exact L|]. split; [exact V|]. apply (G ns' irs_n); [|rewrite L; exact Cn|exact E2].
  intros x Hx. destruct (In_nth _ _ [] Hx) as (i & Hi & <-). rewrite L in Hi. destruct (V i Hi) as (g & _ & ->). unfold scale. rewrite map_length. apply Hn, nth_In, Hi.
Qed.

(** Activity: for every node and desired source, that of this source alone as received by
    the node's reference sensor. *)
Theorem C82_activity b snr ms ref efact nw len irs_d irs_n ds ns sc k j :
  (forall x, In x ds -> length x = len) -> complete (length ds) irs_d ->
  build_scenario b snr ms ref efact nw len irs_d irs_n ds ns = Ok sc -> (k < length irs_d)%nat -> (j < length ds)%nat ->
  length (sc_vad sc) = length irs_d /\ length (nth k (sc_vad sc) []) = length ds /\
  get_vad (samples len (conv_at (nth j (responses irs_d k ref) []) (nth j ds []))) efact nw = Ok (nth j (nth k (sc_vad sc) []) []).
Proof.
  intros Hd Cd H Hk Hj. destruct (build_parts _ _ _ _ _ _ _ _ _ _ _ _ H) as (_ & V & _). destruct (source_vads_ok len ds ref efact nw irs_d _ Hd Cd V) as [L N].
  destruct (N k Hk) as (_ & L2 & W). split; [exact L|]. split; [exact L2|]. exact (W j Hj).
Qed.
Theorem C82_combined_activity len vads i : (i < len)%nat -> (nth i (combined_vad len vads) false = true <-> exists v, In v vads /\ nth i v false = true).
Proof.
  intros Hi. unfold combined_vad. rewrite (nth_map_len _ (seq 0 len) i 0%nat) by (rewrite seq_length; exact Hi). rewrite seq_nth by exact Hi. cbn [Nat.add]. apply existsb_exists.
Qed.
(** With more than one desired source the activity per frame is never obtained. *)
Theorem C82_several_targets_refuted flen shift prop len vads : (2 <= length vads)%nat -> (0 < shift <= len)%nat -> (0 < flen <= len)%nat ->
  node_vad_per_frame flen shift prop len vads = Err TypeError.
Proof.
  intros Hv Hs Hf. unfold node_vad_per_frame. destruct vads as [|a [|b vads]]; [cbn in Hv; lia|cbn in Hv; lia|].
  destruct (Nat.eqb_spec len 0); [lia|]. destruct (Nat.eqb_spec shift 0); [lia|]. assert (1 <= len / shift)%nat by (apply Nat.div_le_lower_bound; lia).
  destruct (Nat.eqb_spec (len / shift) 0); [lia|]. destruct (Nat.ltb_spec len flen); [lia|]. reflexivity.
Qed.

(** A single noise source with an SNR imposed at a microphone: the scenario is built and
    the SNR that is reported is the one asked for. *)
Theorem C82_mic_snr snr ms ref efact nw len irs_d irs_n ds n mic d r :
  (0 < len)%nat -> (2 <= nw)%nat -> (forall x, In x ds -> length x = len) -> length n = len -> complete (length ds) irs_d -> complete 1 irs_n ->
  (forall k, (k < length irs_d)%nat -> (ref < length (nth k irs_d []))%nat) ->
  at_mic ms mic irs_d = Ok d -> at_mic ms mic irs_n = Ok [r] ->
  0 < energy_of len (received d ds) -> 0 < energy_of len (conv_at r n) ->
  exists sc, build_scenario (MicBasis mic) snr ms ref efact nw len irs_d irs_n ds [n] = Ok sc /\ sc_snr sc = Some snr.
Proof.
  intros Hl Hw Hd Hn Cd Cn Hr Ad An P1 P2.
  destruct (build_total snr ms ref efact nw len irs_d irs_n ds [n] mic d [r] Hl Hw Hd ltac:(intros x [<-|[]]; exact Hn) Cd Cn Hr Ad An eq_refl) as [sc E].
  exists sc. split; [exact E|]. exact (build_snr snr ms ref efact nw len irs_d irs_n ds n mic d r sc Hd Hn Cd Cn Ad An P1 P2 E).
Qed.
(** With several noise sources every one of them is given the SNR asked for, so that the
    SNR of all of them together is another one ... *)
Definition c82_irs (n : nat) : irs_t := [[repeat [1] n]].
Lemma c82_complete n : complete n (c82_irs n).
Proof. intros [|[|k]] [|[|m]] H1 H2; cbn in *; try lia. apply repeat_length. Qed.
Lemma c82_en : energy_of 1 (received [[1]] [[1]]) = 1.
Proof. unfold energy_of, received, conv_at. cbn [map fold_right combine seq nth Nat.sub fst snd]. ring. Qed.
Lemma c82_gain : noise_for_mic_snr [[1]] [[1]] [1] [1] 0 = [1].
Proof.
  unfold noise_for_mic_snr. assert (A : energy (mic_signal (length [1]) [[1]] [[1]]) = 1).
  { rewrite mic_at by (intros x [<-|[]]; reflexivity). rewrite energy_at. exact c82_en. }
  assert (B : energy (lfilter [1] [1]) = 1) by (rewrite lfilter_at, energy_at; unfold energy_of, conv_at; cbn [map fold_right combine seq nth Nat.sub fst snd length]; ring).
  rewrite A, B. unfold scale. cbn [map]. f_equal. unfold log10. replace (1 / 1) with 1 by field. rewrite ln_1. replace ((10 * (0 / ln 10) - 0) / 20) with 0 by (unfold Rdiv; ring). unfold pow10. rewrite Rpower_O by lra. ring.
Qed.
Lemma c82_two : exists sc w, build_scenario (MicBasis 0) 0 [1%nat] 0 1 2 1 (c82_irs 1) (c82_irs 2) [[1]] [[1]; [1]] = Ok sc /\ sc_snr sc = Some (10 * log10 (1 / 4)) /\
  sc_noise sc = Some w /\ at_mic [1%nat] 0 w = Ok (samples 1 (received [[1]; [1]] [[1]; [1]])).
Proof.
  unfold build_scenario. rewrite (mic_levels 0 [1%nat] (c82_irs 1) (c82_irs 2) [[1]] 0 [[1]] [[1]; [1]] [[1]; [1]] eq_refl eq_refl eq_refl). cbn [bind combine map fst snd]. rewrite c82_gain.
  rewrite (wet_signals_ok 1 [[1]] (c82_irs 1)); [|intros x [<-|[]]; reflexivity|apply c82_complete]. cbn [bind].
  destruct (source_vads_total 1 [[1]] 0 1 2 (c82_irs 1)) as [v Ev]; try lia; try apply c82_complete; try (intros x [<-|[]]; reflexivity); try (intros [|k] Hk; cbn in *; lia).
  rewrite Ev. cbn [bind length Nat.eqb]. rewrite (wet_signals_ok 1 [[1]; [1]] (c82_irs 2)); [|intros x [<-|[<-|[]]]; reflexivity|apply c82_complete]. cbn [bind].
  rewrite (at_mic_map [1%nat] 0 _ (c82_irs 1) [[1]] eq_refl), (at_mic_map [1%nat] 0 _ (c82_irs 2) [[1]; [1]] eq_refl). cbn [bind]. eexists. eexists. split; [reflexivity|]. cbn [sc_snr sc_noise].
  split; [|split; [reflexivity|exact (at_mic_map [1%nat] 0 (fun srcs => samples 1 (received srcs [[1]; [1]])) (c82_irs 2) [[1]; [1]] eq_refl)]]. do 4 f_equal; unfold samples; rewrite energy_at; [exact c82_en|].
  unfold energy_of, received, conv_at. cbn [map fold_right combine seq nth Nat.sub fst snd]. ring.
Qed.
Lemma log10_quarter : log10 (1 / 4) < 0.
Proof.
  unfold log10. assert (0 < ln 10) by (rewrite <- ln_1; apply ln_increasing; lra). assert (ln (1 / 4) < 0) by (rewrite <- ln_1; apply ln_increasing; lra).
  apply (Rmult_lt_reg_r (ln 10)); [assumption|]. unfold Rdiv at 1. rewrite Rmult_assoc, Rinv_l by lra. lra.
Qed.
Theorem C82_mic_snr_several_refuted : exists ms ref efact nw len irs_d irs_n ds ns mic sc cur,
  length ns = 2%nat /\ build_scenario (MicBasis mic) 0 ms ref efact nw len irs_d irs_n ds ns = Ok sc /\ sc_snr sc = Some cur /\ cur < 0.
Proof.
  exists [1%nat], 0%nat, 1, 2%nat, 1%nat, (c82_irs 1), (c82_irs 2), [[1]], [[1]; [1]], 0%nat. destruct c82_two as (sc & _ & E & S & _). exists sc, (10 * log10 (1 / 4)).
  split; [reflexivity|]. split; [exact E|]. split; [exact S|]. pose proof log10_quarter. lra.
Qed.
(** ... but never more than 20 log10 of their number below the one asked for. *)
Theorem C82_mic_snr_several snr ms ref efact nw len irs_d irs_n ds ns mic d rs sc w x : (0 < length ns)%nat ->
  (forall x, In x ds -> length x = len) -> (forall n, In n ns -> length n = len) -> complete (length ds) irs_d -> complete (length ns) irs_n ->
  at_mic ms mic irs_d = Ok d -> at_mic ms mic irs_n = Ok rs -> length rs = length ns ->
  0 < energy_of len (received d ds) -> (forall r n, In (r, n) (combine rs ns) -> 0 < energy_of len (conv_at r n)) ->
  build_scenario (MicBasis mic) snr ms ref efact nw len irs_d irs_n ds ns = Ok sc ->
  sc_noise sc = Some w -> at_mic ms mic w = Ok x -> 0 < energy x ->
  exists cur, sc_snr sc = Some cur /\ snr - 20 * log10 (INR (length ns)) <= cur.
Proof. exact (build_snr_several snr ms ref efact nw len irs_d irs_n ds ns mic d rs sc w x). Qed.

(** Signals from files are divided by their standard deviation: their power is one plus
    the square of the remaining offset ... *)
Theorem C82_normalised_power x : 0 < std x -> power (normalise x) = 1 + (mean x / std x) ^ 2.
Proof. exact (normalised_power x). Qed.
(** ... so that an SNR imposed on dry signals is met exactly by signals without offset. *)
Theorem C82_dry_snr snr ms irs_d irs_n ds i d n : 0 < std d -> 0 < std n -> mean d = 0 -> mean n = 0 ->
  exists n', noise_level DryBasis snr ms irs_d irs_n ds i (normalise n) = Ok n' /\ power (normalise d) / power n' = dB_ratio snr.
Proof.
  intros H1 H2 M1 M2. eexists. split; [reflexivity|]. rewrite power_scale, !normalised_power, M1, M2 by assumption.
  assert (P : pow10 (- snr / 20) * pow10 (- snr / 20) = / dB_ratio snr).
  { rewrite <- pow10_add. unfold dB_ratio, pow10. rewrite <- Rpower_Ropp. f_equal. field. }
  rewrite P. assert (0 < dB_ratio snr) by apply exp_pos. field. repeat split; lra.
Qed.

(** one desired and one noise source, two nodes of one sensor, microphone 1 of node 1 *)
Example C82_example : exists sc, build_scenario (MicBasis 1) 5 [1; 1]%nat 0 2 2 2 [[[[1; 1]]]; [[[0; 2]]]] [[[[1]]]; [[[3]]]] [[1; 2]] [[1; -1]] = Ok sc /\ sc_snr sc = Some 5 /\
  nth 0 (nth 1 (sc_speech sc) []) [] = samples 2 (received [[0; 2]] [[1; 2]]).
Proof.
  assert (C : forall a b : list R, complete 1 [[[a]]; [[b]]]) by (intros a b [|[|k]] [|[|m]] H1 H2; cbn in *; try lia; reflexivity).
  destruct (C82_mic_snr 5 [1; 1]%nat 0 2 2 2 [[[[1; 1]]]; [[[0; 2]]]] [[[[1]]]; [[[3]]]] [[1; 2]] [1; -1] 1 [[0; 2]] [3]) as (sc & E & S); try lia; try reflexivity; try apply C;
    try (intros x [<-|[]]; reflexivity); try (intros [|[|k]] Hk; cbn in *; lia); try (unfold energy_of, received, conv_at; cbn [map fold_right combine seq nth Nat.sub fst snd]; lra).
  exists sc. split; [exact E|]. split; [exact S|].
  assert (L : forall a b : R, forall x, In x [[a; b]] -> length x = 2%nat) by (intros a b x [<-|[]]; reflexivity).
  destruct (C82_wet_signals _ _ _ _ _ _ 2 _ _ _ _ sc (L _ _) (L _ _) (C _ _) (C _ _) E) as [W _]. apply (W 1%nat 0%nat); cbn; lia.
Qed.
Example C82_example_two : exists sc w x, build_scenario (MicBasis 0) 0 [1%nat] 0 1 2 1 (c82_irs 1) (c82_irs 2) [[1]] [[1]; [1]] = Ok sc /\ sc_noise sc = Some w /\ at_mic [1%nat] 0 w = Ok x /\ 0 < energy x.
Proof.
  destruct c82_two as (sc & w & E & _ & N & A). exists sc, w, (samples 1 (received [[1]; [1]] [[1]; [1]])). split; [exact E|]. split; [exact N|]. split; [exact A|]. unfold samples. rewrite energy_at.
  unfold energy_of, received, conv_at. cbn [map fold_right combine seq nth Nat.sub fst snd]. lra.
Qed.
Example C82_example_split : responses (split_noise (sensor_map [1; 2]%nat) 2 1 [[[1]; [2]]; [[3]; [4]]; [[5]; [6]]]) 1 1 = [[6]].
Proof. reflexivity. Qed.
Example C82_example_std : 0 < std [1; -1] /\ mean [1; -1] = 0.
Proof.
  assert (M : mean [1; -1] = 0) by (unfold mean, rsum; cbn; field). split; [|exact M]. unfold std. rewrite M. unfold rsum. cbn [map fold_right length INR]. apply sqrt_lt_R0. lra.
Qed.

Print Assumptions C82_responses.
Print Assumptions C82_no_noise_sources_refuted.
Print Assumptions C82_wet_signals.
Print Assumptions C82_activity.
Print Assumptions C82_combined_activity.
Print Assumptions C82_several_targets_refuted.
Print Assumptions C82_mic_snr.
Print Assumptions C82_mic_snr_several_refuted.
Print Assumptions C82_mic_snr_several.
Print Assumptions C82_normalised_power.
Print Assumptions C82_dry_snr.
