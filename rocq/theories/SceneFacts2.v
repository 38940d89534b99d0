From Verif Require Import Base BaseFacts Level LevelSpec LevelFacts LevelFacts2 LevelFacts3 SigGen SigGenSpec SigGenFacts Scene SceneSpec SceneFacts.
From Coq Require Import QArith Reals Lra.
Local Open Scope R_scope.

(** ** several noise sources *)
Lemma mic_levels snr ms irs_d irs_n ds mic d rs ns : at_mic ms mic irs_d = Ok d -> at_mic ms mic irs_n = Ok rs -> length rs = length ns ->
  noise_levels (MicBasis mic) snr ms irs_d irs_n ds ns = Ok (map (fun p => noise_for_mic_snr d ds (fst p) (snd p) snr) (combine rs ns)).
Proof.
  intros Ad An L. unfold noise_levels. cbn [noise_level]. 
  assert (G : forall (ns : list (list R)) (pre : list ir) (post : list ir), rs = pre ++ post -> length post = length ns ->
    mapM (fun q => do d <- at_mic ms mic irs_d; do s <- at_mic ms mic irs_n; do r <- get s (fst q); Ok (noise_for_mic_snr d ds r (snd q) snr)) (combine (seq (length pre) (length ns)) ns) =
    Ok (map (fun p => noise_for_mic_snr d ds (fst p) (snd p) snr) (combine post ns))).
  { clear ns L. induction ns as [|n ns IH]; intros pre post E Lp.
    - destruct post; reflexivity.
    - destruct post as [|r post]; [discriminate Lp|]. cbn [length seq combine mapM fst snd]. rewrite Ad, An. cbn [bind].
      assert (Gr : get rs (length pre) = Ok r) by (unfold get; rewrite E, nth_error_app2, Nat.sub_diag by lia; reflexivity). rewrite Gr. cbn [bind].
      specialize (IH (pre ++ [r]) post). rewrite app_length in IH. cbn [length] in IH. rewrite Nat.add_1_r, Ad, An in IH. cbn [bind] in IH.
      rewrite IH; [reflexivity|rewrite <- app_assoc; exact E|injection Lp as Lp; exact Lp]. }
  exact (G ns [] rs eq_refl L).
Qed.

Lemma square_sum l : (fold_right Rplus 0 l) ^ 2 <= INR (length l) * fold_right Rplus 0 (map (fun x => x ^ 2) l).
Proof.
  induction l as [|a l IH]; [cbn; lra|]. cbn [fold_right map]. change (length (a :: l)) with (S (length l)). rewrite S_INR.
  set (s := fold_right Rplus 0 l) in *. set (q := fold_right Rplus 0 (map (fun x => x ^ 2) l)) in *. set (k := INR (length l)) in *.
  assert (K : 0 <= k) by apply pos_INR. assert (Q : 0 <= q) by (unfold q; clear; induction l as [|b l IH]; cbn [map fold_right]; [lra|nra]).
  destruct (Req_dec k 0) as [Z|Z].
  - assert (S0 : s ^ 2 <= 0) by nra. assert (s = 0) by nra. rewrite H. nra.
  - assert (0 < k) by lra.
    (* 2 a s <= k a^2 + s^2 / k *)
    assert (A : 2 * a * s * k <= k * k * a ^ 2 + s ^ 2) by (assert (0 <= (k * a - s) ^ 2) by apply pow2_ge_0; nra).
    assert (B : s ^ 2 * (1 + k) <= k * q * (1 + k)) by (apply Rmult_le_compat_r; [lra|exact IH]).
    apply (Rmult_le_reg_l k); [assumption|]. nra.
Qed.

Lemma sum_swap (f : nat -> nat -> R) l m : fold_right Rplus 0 (map (fun t => fold_right Rplus 0 (map (fun j => f t j) m)) l) = fold_right Rplus 0 (map (fun j => fold_right Rplus 0 (map (fun t => f t j) l)) m).
Proof.
  induction l as [|t l IH]; cbn [map fold_right].
  - induction m as [|j m IHm]; [reflexivity|]. cbn [map fold_right]. rewrite <- IHm. ring.
  - rewrite IH. clear. induction m as [|j m IHm]; cbn [map fold_right]; [ring|]. rewrite <- IHm. ring.
Qed.

Lemma energy_many len (ps : list (ir * list R)) : 
  energy_of len (fun t => fold_right Rplus 0 (map (fun p => conv_at (fst p) (snd p) t) ps)) <=
  INR (length ps) * fold_right Rplus 0 (map (fun p => energy_of len (conv_at (fst p) (snd p))) ps).
Proof.
  unfold energy_of. induction (seq 0 len) as [|t l IH]; cbn [map fold_right].
  - right. clear. generalize (INR (length ps)). induction ps as [|p ps IH]; intros k; cbn [map fold_right]; [ring|]. rewrite Rplus_0_l. apply IH.
  - assert (A := square_sum (map (fun p => conv_at (fst p) (snd p) t) ps)). rewrite map_length, map_map in A.
    eapply Rle_trans; [apply Rplus_le_compat; [exact A|exact IH]|]. rewrite <- Rmult_plus_distr_l. apply Req_le. f_equal.
    clear. induction ps as [|p ps IH]; cbn [map fold_right]; [ring|]. rewrite <- IH. ring.
Qed.

Lemma combine_map_r {A B C} (f : A * B -> C) (la : list A) : forall lb, combine la (map f (combine la lb)) = map (fun p => (fst p, f p)) (combine la lb).
Proof. induction la as [|a la IH]; intros [|b lb]; try reflexivity. cbn [combine map fst]. f_equal. apply IH. Qed.

Lemma build_snr_several snr ms ref efact nw len irs_d irs_n ds ns mic d rs sc w x : (0 < length ns)%nat ->
  (forall x, In x ds -> length x = len) -> (forall n, In n ns -> length n = len) -> complete (length ds) irs_d -> complete (length ns) irs_n ->
  at_mic ms mic irs_d = Ok d -> at_mic ms mic irs_n = Ok rs -> length rs = length ns ->
  0 < energy_of len (received d ds) -> (forall r n, In (r, n) (combine rs ns) -> 0 < energy_of len (conv_at r n)) ->
  build_scenario (MicBasis mic) snr ms ref efact nw len irs_d irs_n ds ns = Ok sc ->
  sc_noise sc = Some w -> at_mic ms mic w = Ok x -> 0 < energy x ->
  exists cur, sc_snr sc = Some cur /\ snr - 20 * log10 (INR (length ns)) <= cur.
Proof.
  intros HN Hd Hn Cd Cn Ad An Lr P1 P2 H Hw Hx Px. unfold build_scenario in H. rewrite (mic_levels snr ms irs_d irs_n ds mic d rs ns Ad An Lr) in H. cbn [bind] in H.
  set (ns' := map (fun p => noise_for_mic_snr d ds (fst p) (snd p) snr) (combine rs ns)) in *.
  assert (Ln' : length ns' = length ns) by (unfold ns'; rewrite map_length, combine_length, Lr, Nat.min_id; reflexivity).
  assert (S : forall r n, In (r, n) (combine rs ns) -> length (noise_for_mic_snr d ds r n snr) = len /\ energy_of len (conv_at r (noise_for_mic_snr d ds r n snr)) = energy_of len (received d ds) / dB_ratio snr).
  { intros r n I. assert (Ln := Hn n (in_combine_r _ _ _ _ I)).
    destruct (mic_snr' d ds r n snr) as [L S]; [intros y Hy; rewrite Ln; apply Hd, Hy|rewrite Ln; exact P1|rewrite Ln; exact (P2 r n I)|]. rewrite Ln in L, S. split; [exact L|].
    assert (0 < dB_ratio snr) by apply exp_pos. set (En := energy_of len (conv_at r (noise_for_mic_snr d ds r n snr))) in *.
    assert (En <> 0). { intros Z. rewrite Z in S. unfold Rdiv in S. rewrite Rinv_0, Rmult_0_r in S. lra. }
    rewrite <- S. field. split; [assumption|lra]. }
  rewrite (wet_signals_ok len ds irs_d Hd Cd) in H. cbn [bind] in H. destruct (source_vads ds ref efact nw irs_d) as [v|]; [|discriminate]. cbn [bind] in H.
  destruct (Nat.eqb_spec (length ns) 0) as [Z|_]; [lia|].
  rewrite (wet_signals_ok len ns' irs_n) in H; [|intros y Hy; apply in_map_iff in Hy; destruct Hy as ([r n] & <- & I); apply (S r n I)|rewrite Ln'; exact Cn]. cbn [bind] in H.
  rewrite (at_mic_map ms mic _ _ _ Ad), (at_mic_map ms mic _ _ _ An) in H. cbn [bind] in H. injection H as <-. cbn [sc_noise sc_snr] in *. injection Hw as <-.
  rewrite (at_mic_map ms mic _ _ _ An) in Hx. injection Hx as <-. eexists. split; [reflexivity|]. unfold samples in *. rewrite !energy_at in *.
  assert (B : energy_of len (received rs ns') <= INR (length ns) * (INR (length ns) * (energy_of len (received d ds) / dB_ratio snr))).
  { unfold received at 1. unfold ns'. rewrite combine_map_r. eapply Rle_trans; [apply energy_many|]. rewrite map_length, combine_length, Lr, Nat.min_id.
    apply Rmult_le_compat_l; [apply pos_INR|]. rewrite map_map. cbn [fst snd].
    assert (T : forall ps, (forall r n, In (r, n) ps -> In (r, n) (combine rs ns)) -> fold_right Rplus 0 (map (fun p => energy_of len (conv_at (fst p) (noise_for_mic_snr d ds (fst p) (snd p) snr))) ps) = INR (length ps) * (energy_of len (received d ds) / dB_ratio snr)).
    { induction ps as [|[r n] ps IH]; intros Hps; [cbn; ring|]. cbn [map fold_right fst snd]. change (length ((r, n) :: ps)) with (Datatypes.S (length ps)). rewrite S_INR.
      rewrite IH by (intros r' n' I; apply Hps; right; exact I). destruct (S r n (Hps r n (or_introl eq_refl))) as [_ ->]. ring. }
    rewrite (T (combine rs ns) (fun r n I => I)), combine_length, Lr, Nat.min_id. lra. }
  assert (D : 0 < dB_ratio snr) by apply exp_pos. set (E := energy_of len (received d ds)) in *. set (M := energy_of len (received rs ns')) in *. set (K := INR (length ns)) in *.
  assert (HK : 0 < K) by (apply lt_0_INR, HN).
  assert (C : dB_ratio snr / (K * K) <= E / M).
  { assert (M * dB_ratio snr <= K * K * E). { apply (Rmult_le_compat_r (dB_ratio snr)) in B; [|lra]. replace (K * (K * (E / dB_ratio snr)) * dB_ratio snr) with (K * K * E) in B by (field; lra). exact B. }
    apply (Rmult_le_reg_r (K * K * M)); [apply Rmult_lt_0_compat; [nra|exact Px]|].
    replace (dB_ratio snr / (K * K) * (K * K * M)) with (M * dB_ratio snr) by (field; lra). replace (E / M * (K * K * M)) with (K * K * E) by (field; lra). assumption. }
  assert (L10 : 0 < ln 10) by (rewrite <- ln_1; apply ln_increasing; lra).
  assert (G : log10 (dB_ratio snr / (K * K)) = snr / 10 - 2 * log10 K).
  { unfold log10, Rdiv. rewrite ln_mult, ln_Rinv, ln_mult by (try assumption; try apply Rinv_0_lt_compat; nra).
    unfold dB_ratio, Rpower. rewrite ln_exp. field. lra. }
  assert (F : log10 (dB_ratio snr / (K * K)) <= log10 (E / M)).
  { unfold log10. apply Rmult_le_compat_r; [left; apply Rinv_0_lt_compat, L10|]. 
    assert (0 < dB_ratio snr / (K * K)) by (apply Rdiv_lt_0_compat; nra). destruct C as [C|C]; [left; apply ln_increasing; assumption|rewrite C; right; reflexivity]. }
  lra.
Qed.
