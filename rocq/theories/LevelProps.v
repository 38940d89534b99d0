(** Theorems about the VAD (C39), noise levels (C40, C58) and array rotation (C41). *)
From Verif Require Import Base Level LevelSpec LevelFacts LevelFacts2 LevelFacts3.
From Coq Require Import QArith Reals Lra.
Open Scope R_scope.

(** ** C39 *)
Theorem C39_active_iff : forall x nw thr, (2 <= nw)%nat ->
  exists v, oracle_vad x nw thr = Ok v /\ length v = length x /\
    forall i, (i < length x)%nat -> (nth i v false = true <-> thr < mean_energy_at x (around (length x) nw i)).
Proof. exact oracle_spec. Qed.
(** the window always contains the sample itself, so the mean is over at least one sample *)
Theorem C39_window : forall n nw i j, (2 <= nw)%nat -> (i < n)%nat ->
  In i (around n nw i) /\ (In j (around n nw i) <-> (j < n /\ i <= j + nw / 2 /\ j < i + nw / 2)%nat).
Proof.
  intros n nw i j Hw Hi. split; [rewrite <- window_around; apply window_self; assumption|].
  unfold around. rewrite filter_In, in_seq, andb_true_iff, Nat.leb_le, Nat.ltb_lt. lia.
Qed.
(** windows shorter than two samples (in particular a non-positive window length)
    make the computation fail on every non-empty signal *)
Theorem C39_short_window_raises : forall x nw thr, (nw < 2)%nat -> x <> [] -> oracle_vad x nw thr = Err ZeroDivisionError.
Proof. exact oracle_short. Qed.
Theorem C39_scaling : forall a x nw thr, a <> 0 ->
  oracle_vad (map (fun v => a * v) x) nw (a ^ 2 * thr) = oracle_vad x nw thr.
Proof. intros a x nw thr Ha. replace (a ^ 2 * thr) with (a * a * thr) by ring. exact (oracle_scale a x nw thr Ha). Qed.
(** with the threshold relative to the peak, the VAD does not depend on the level at all *)
Theorem C39_peak_threshold_scale_free : forall a x efact nw, a <> 0 ->
  get_vad (map (fun v => a * v) x) efact nw = get_vad x efact nw.
Proof. exact get_vad_scale. Qed.
Theorem C39_monotone : forall x nw thr thr' v v' i, thr <= thr' -> oracle_vad x nw thr = Ok v -> oracle_vad x nw thr' = Ok v' ->
  nth i v' false = true -> nth i v false = true.
Proof. exact oracle_monotone. Qed.
Example C39_example : oracle_vad [0; 0; 2; 0] 2 1 = Ok [false; false; true; true].
Proof.
  unfold oracle_vad. cbn [length seq mapM]. change (2 / 2)%nat with 1%nat.
  cbn [Nat.sub Nat.add Nat.min slice firstn skipn compute_vad bind].
  unfold power, energy, rsum. cbn [map fold_right length INR].
  repeat match goal with |- context [Rlt_dec ?a ?b] => destruct (Rlt_dec a b) as [H|H]; try (exfalso; revert H; cbn; lra); clear H; cbn [bind] end.
  reflexivity.
Qed.

(** ** C40 *)
Theorem C40_snr_exact : forall sig noise snr, 0 < power sig -> 0 < power noise ->
  let (out, n') := apply_noise sig noise snr in
  power sig / power n' = dB_ratio snr /\
  (length noise = length sig -> forall i, nth i out 0 = nth i sig 0 + nth i n' 0) /\
  exists g, 0 < g /\ n' = map (Rmult g) noise.
Proof.
  intros sig noise snr Hs Hn. assert (H := noise_snr sig noise snr Hs Hn). unfold apply_noise in *. cbn [snd] in H. split; [exact H|]. split.
  - intros Hl i. unfold vadd. set (n' := scale _ noise). assert (Hn' : length n' = length sig) by (unfold n', scale; rewrite map_length; exact Hl).
    destruct (Nat.lt_ge_cases i (length sig)) as [Hi|Hi].
    + rewrite (nth_indep _ 0 ((fun p => fst p + snd p) (0, 0))) by (rewrite map_length, combine_length; lia). rewrite (map_nth (fun p => fst p + snd p)), combine_nth by congruence. reflexivity.
    + rewrite !nth_overflow by (rewrite ?map_length, ?combine_length; lia). ring.
  - eexists. split; [apply pow10_pos | reflexivity].
Qed.
Example C40_example : 0 < power [1; -1] /\ 0 < power [3; 4] /\ power [3; 4] = 25 / 2.
Proof. unfold power, energy, rsum. cbn [map fold_right length INR]. repeat split; lra. Qed.

(** ** C58: SNR requested at a microphone *)
Theorem C58_mic_snr_exact : forall irs ds ir_n n snr, (forall d, In d ds -> length d = length n) ->
  let n' := noise_for_mic_snr irs ds ir_n n snr in
  0 < energy_of (length n) (received irs ds) -> 0 < energy_of (length n) (conv_at ir_n n) ->
  length n' = length n /\ energy_of (length n) (received irs ds) / energy_of (length n) (conv_at ir_n n') = dB_ratio snr.
Proof. exact mic_snr'. Qed.
Example C58_example : received [[1]; [0; 1]] [[1; 2; 3]; [10; 20; 30]] 2 = 23 /\
  0 < energy_of 3 (received [[1]; [0; 1]] [[1; 2; 3]; [10; 20; 30]]) /\ 0 < energy_of 3 (conv_at [0; 1] [3; 5; 7]).
Proof.
  unfold energy_of, received, conv_at. cbn [map fold_right combine length seq nth Nat.sub fst snd]. split; [|split]; lra.
Qed.

(** ** C41 *)
Theorem C41_distances : forall target pts i j d, (vx target <> 0 \/ vy target <> 0) -> (i < length pts)%nat -> (j < length pts)%nat ->
  dist2 (nth i (rotate_array target pts) d) (nth j (rotate_array target pts) d) = dist2 (nth i pts d) (nth j pts d).
Proof. exact rotate_dist. Qed.
(** the axis through the target point parallel to (0,0,1) goes to the one along the target vector *)
Theorem C41_axis : forall target k, (vx target <> 0 \/ vy target <> 0) ->
  rotate_array target [vplus target (vscale k (mkV 0 0 1))] = [vplus target (vscale (k / vnorm target) target)].
Proof. exact rotate_axis. Qed.
(** it is a rotation, not a reflection *)
Theorem C41_proper : forall target, (vx target <> 0 \/ vy target <> 0) -> det3 (rot_mat target) = 1.
Proof. exact rot_det. Qed.
Theorem C41_count : forall target pts, length (rotate_array target pts) = length pts.
Proof. intros. apply map_length. Qed.
Example C41_example : exists target, (vx target <> 0 \/ vy target <> 0) /\ vnorm target = 5.
Proof.
  exists (mkV 3 0 4). split; [left; cbn; lra|]. unfold vnorm, dot. cbn [vx vy vz]. replace (3 * 3 + 0 * 0 + 4 * 4) with (5 * 5) by ring. apply sqrt_square. lra.
Qed.
