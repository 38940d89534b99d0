From Verif Require Import Base BaseFacts Level LevelSpec LevelFacts LevelFacts2 LevelFacts3 SigGen SigGenSpec SigGenFacts Scene SceneSpec SceneFacts SceneFacts2.
From Coq Require Import QArith Reals Lra.
Local Open Scope R_scope.

Lemma rsum_sq_dev (x : list R) m : rsum (map (fun v => (v - m) * (v - m)) x) = energy x - 2 * m * rsum x + INR (length x) * m * m.
Proof. unfold energy. induction x as [|v x IH]; [cbn; ring|]. change (length (v :: x)) with (S (length x)). rewrite S_INR. cbn [map]. unfold rsum in *. cbn [fold_right]. rewrite IH. ring. Qed.
Lemma normalised_power x : 0 < std x -> power (normalise x) = 1 + (mean x / std x) ^ 2.
Proof.
  intros H. assert (HN : length x <> 0%nat). { intros E. destruct x; [|discriminate E]. unfold std in H. cbn in H. unfold Rdiv in H. rewrite Rmult_0_l, sqrt_0 in H. lra. }
  assert (HI : 0 < INR (length x)) by (apply lt_0_INR; lia).
  assert (E : energy (normalise x) = energy x / (std x * std x)).
  { unfold normalise, energy. rewrite map_map. generalize (std x), H. intros s Hs. clear. induction x as [|v x IH]; cbn [map]; unfold rsum in *; cbn [fold_right]; [unfold Rdiv; ring|].
    rewrite IH. unfold Rdiv. rewrite Rinv_mult. ring. }
  unfold power. rewrite E. unfold normalise. rewrite map_length.
  assert (V : std x * std x = energy x / INR (length x) - mean x * mean x).
  { unfold std at 1 2. rewrite sqrt_sqrt.
    - rewrite rsum_sq_dev. unfold mean. field. lra.
    - apply Rmult_le_pos; [|left; apply Rinv_0_lt_compat, HI]. generalize (mean x). clear. intros m. induction x as [|v x IH]; cbn [map]; unfold rsum in *; cbn [fold_right]; [lra|pose proof (Rle_0_sqr (v - m)); unfold Rsqr in *; lra]. }
  replace (energy x) with (INR (length x) * (std x * std x + mean x * mean x)) by (rewrite V; field; lra). field. lra.
Qed.

Lemma get_vad_total x e nw : x <> [] -> (2 <= nw)%nat -> exists v, get_vad x e nw = Ok v.
Proof. intros Hx Hn. unfold get_vad. destruct x as [|a x]; [congruence|]. cbn [amax2 bind]. destruct (oracle_ok (a :: x) nw (fold_right (fun w m => Rmax (w * w) m) (a * a) x / e) Hn) as (v & E & _). exists v. exact E. Qed.

Lemma source_vads_total len xs ref efact nw irs : (0 < len)%nat -> (2 <= nw)%nat -> (forall x, In x xs -> length x = len) -> complete (length xs) irs ->
  (forall k, (k < length irs)%nat -> (ref < length (nth k irs []))%nat) -> exists v, source_vads xs ref efact nw irs = Ok v.
Proof.
  intros Hl Hw Hx Hc Hr. unfold source_vads. apply mapM_exists. intros node I. destruct (In_nth _ _ [] I) as (k & Hk & <-). specialize (Hr k Hk).
  unfold get. rewrite (nth_error_nth' _ [] Hr). cbn [bind]. fold (responses irs k ref). rewrite wet_sources_ok by (rewrite (Hc k ref Hk Hr); lia). cbn [bind].
  apply mapM_exists. intros y Hy. apply in_map_iff in Hy. destruct Hy as ([r x] & <- & Ip). cbn [fst snd]. apply get_vad_total; [|exact Hw].
  intros E. apply (f_equal (@length R)) in E. rewrite lfilter_at, map_length, seq_length, (Hx x (in_combine_r _ _ _ _ Ip)) in E. cbn in E. lia.
Qed.

Lemma build_total snr ms ref efact nw len irs_d irs_n ds ns mic d rs :
  (0 < len)%nat -> (2 <= nw)%nat -> (forall x, In x ds -> length x = len) -> (forall n, In n ns -> length n = len) -> complete (length ds) irs_d -> complete (length ns) irs_n ->
  (forall k, (k < length irs_d)%nat -> (ref < length (nth k irs_d []))%nat) ->
  at_mic ms mic irs_d = Ok d -> at_mic ms mic irs_n = Ok rs -> length rs = length ns ->
  exists sc, build_scenario (MicBasis mic) snr ms ref efact nw len irs_d irs_n ds ns = Ok sc.
Proof.
  intros Hl Hw Hd Hn Cd Cn Hr Ad An Lr. unfold build_scenario. rewrite (mic_levels snr ms irs_d irs_n ds mic d rs ns Ad An Lr). cbn [bind].
  rewrite (wet_signals_ok len ds irs_d Hd Cd). cbn [bind]. destruct (source_vads_total len ds ref efact nw irs_d Hl Hw Hd Cd Hr) as [v ->]. cbn [bind].
  destruct (Nat.eqb_spec (length ns) 0) as [E|E]; [eexists; reflexivity|].
  rewrite (wet_signals_ok len _ irs_n).
  - cbn [bind]. rewrite (at_mic_map ms mic _ _ _ Ad), (at_mic_map ms mic _ _ _ An). cbn [bind]. eexists. reflexivity.
  - intros y Hy. apply in_map_iff in Hy. destruct Hy as ([r n] & <- & I). unfold noise_for_mic_snr, scale. rewrite map_length. apply Hn, (in_combine_r _ _ _ _ I).
  - rewrite map_length, combine_length, Lr, Nat.min_id. exact Cn.
Qed.

(** what a scenario contains *)
Lemma build_parts b snr ms ref efact nw len irs_d irs_n ds ns sc : build_scenario b snr ms ref efact nw len irs_d irs_n ds ns = Ok sc ->
  wet_signals len ds irs_d = Ok (sc_speech sc) /\ source_vads ds ref efact nw irs_d = Ok (sc_vad sc) /\
  (ns = [] -> sc_noise sc = None) /\
  (ns <> [] -> exists ns' w, noise_levels b snr ms irs_d irs_n ds ns = Ok ns' /\ wet_signals len ns' irs_n = Ok w /\ sc_noise sc = Some w).
Proof.
  unfold build_scenario. destruct (noise_levels b snr ms irs_d irs_n ds ns) as [ns'|]; [|discriminate]. cbn [bind].
  destruct (wet_signals len ds irs_d) as [s|]; [|discriminate]. cbn [bind]. destruct (source_vads ds ref efact nw irs_d) as [v|]; [|discriminate]. cbn [bind].
  destruct ns as [|n ns]; cbn [length Nat.eqb].
  - intros H. injection H as <-. cbn. repeat split; try reflexivity. congruence.
  - destruct (wet_signals len ns' irs_n) as [w|] eqn:E; [|discriminate]. cbn [bind].
    destruct b as [|mic|].
    + intros H. injection H as <-. cbn. repeat split; try reflexivity; try discriminate. intros _. exists ns', w. auto.
    + destruct (at_mic ms mic s); [|discriminate]. cbn [bind]. destruct (at_mic ms mic w); [|discriminate]. cbn [bind]. intros H. injection H as <-. cbn. repeat split; try reflexivity; try discriminate. intros _. exists ns', w. auto.
    + intros H. injection H as <-. cbn. repeat split; try reflexivity; try discriminate. intros _. exists ns', w. auto.
Qed.
Lemma levels_length b snr ms irs_d irs_n ds ns ns' : noise_levels b snr ms irs_d irs_n ds ns = Ok ns' ->
  length ns' = length ns /\ forall i, (i < length ns)%nat -> exists g, 0 < g /\ nth i ns' [] = scale g (nth i ns []).
Proof.
  intros H. unfold noise_levels in H. destruct (mapM_ok_nth _ _ _ (0%nat, []) [] H) as [L N]. rewrite combine_length, seq_length, Nat.min_id in L, N. split; [exact L|].
  intros i Hi. specialize (N i Hi). rewrite (combine_nth_seq ns i [] Hi) in N. cbn [fst snd] in N. unfold noise_level in N.
  destruct b as [|mic|].
  - injection N as <-. exists (pow10 (- snr / 20)). split; [apply pow10_pos|reflexivity].
  - destruct (at_mic ms mic irs_d); [|discriminate]. cbn [bind] in N. destruct (at_mic ms mic irs_n) as [s|]; [|discriminate]. cbn [bind] in N. destruct (get s i); [|discriminate]. cbn [bind] in N. injection N as <-.
    unfold noise_for_mic_snr. eexists. split; [|reflexivity]. apply pow10_pos.
  - injection N as <-. exists 1. split; [lra|]. unfold scale. rewrite <- (map_id (nth i ns [])) at 1. apply map_ext. intros a. ring.
Qed.
