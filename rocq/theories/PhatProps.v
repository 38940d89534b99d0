(** C89, C90: the DXCP-PhaT estimates of the sampling-rate and sampling-time offsets. *)
From Verif Require Import Base BaseFacts Cx CxFacts ChunkSpec ChunkFacts WolaFacts Dxcp Phat PhatFacts PhatFacts2 PhatFacts3 PhatFacts4 PhatFacts5.
From Coq Require Import Reals Lra.
Local Open Scope R_scope.

(** ** Specification *)
(** parameters with which the estimator can work: the range of lags fits in the frame *)
Definition usable (c : config) : Prop := (0 < ups c)%nat /\ (lambda c < half c)%nat /\ (3 <= half c)%nat.
(** the normalised cross-spectrum of the [i]-th pair of buffers, smoothed recursively from
    the first one on *)
Fixpoint smoothed (c : config) (B : nat -> (nat -> R) * (nat -> R)) (i : nat) : nat -> cx :=
  match i with
  | O => phat c (fst (B O)) (snd (B O))
  | S i' => fun k => (cr (alpha1 c) * smoothed c B i' k + cr (1 - alpha1 c) * phat c (fst (B i)) (snd (B i)) k)%cx
  end.
(** its change of phase over the accumulation time *)
Definition second (c : config) (B : nat -> (nat -> R) * (nat -> R)) (i k : nat) : cx :=
  (smoothed c B i k * conj (smoothed c B (i - accum_frames c) k))%cx.

Lemma million : INR (10 ^ 6) = 10 ^ 6.
Proof. rewrite pow_INR. f_equal. cbn [INR]. ring. Qed.
Lemma lambda_bounds c : INR (b_samples c) * INR (sro_max c) / 10 ^ 6 < INR (lambda c) <= INR (b_samples c) * INR (sro_max c) / 10 ^ 6 + 1.
Proof.
  unfold lambda. set (a := (b_samples c * sro_max c)%nat). set (m := (10 ^ 6)%nat). assert (M0 : m <> O) by (unfold m; apply Nat.pow_nonzero; lia).
  pose proof (Nat.div_mod_eq a m) as E. pose proof (Nat.mod_upper_bound a m M0) as L. apply (f_equal INR) in E. rewrite plus_INR, mult_INR in E.
  apply lt_INR in L. pose proof (pos_INR (a mod m)) as P. assert (EA : INR a = INR (b_samples c) * INR (sro_max c)) by (unfold a; apply mult_INR).
  rewrite <- EA, plus_INR. replace (INR 1) with 1 by reflexivity. assert (EM : INR m = 10 ^ 6) by apply million. rewrite EM in *.
  assert (D : INR a / 10 ^ 6 = INR (a / m) + INR (a mod m) / 10 ^ 6) by (rewrite E at 1; field). rewrite D. lra.
Qed.

(** ** C89 *)
(** No input makes the estimator fail. *)
Theorem C89_defined : forall c tdoa bufs, usable c -> exists s, updates c tdoa (st0 c) bufs = Ok s.
Proof. intros c tdoa bufs (H1 & H2 & _). destruct (updates_total c H1 H2 tdoa bufs) as (s & E & _). exists s. exact E. Qed.
(** Both estimates are zero before the update at which they start. *)
Theorem C89_waits : forall c tdoa bufs s, usable c -> updates c tdoa (st0 c) bufs = Ok s ->
  (length bufs < accum_frames c + 1 + (size c / shift c - 1) + add_wait c + settle c)%nat -> sro s = 0 /\ sto s = 0.
Proof. intros c tdoa bufs s (H1 & H2 & _) E L. destruct (not_yet c H1 H2 _ _ _ E L) as (A & B & _). auto. Qed.
(** From then on the rate offset is within the range of the lags: up to one lag below and
    nearly two above the largest offset asked for. *)
Theorem C89_range : forall c tdoa bufs s, usable c -> (0 < b_samples c)%nat -> updates c tdoa (st0 c) bufs = Ok s ->
  - (INR (sro_max c) + 10 ^ 6 / INR (b_samples c)) <= sro s <= INR (sro_max c) + (2 - / INR (ups c)) * (10 ^ 6 / INR (b_samples c)).
Proof.
  intros c tdoa bufs s (H1 & H2 & H3) HB E.
  assert (BP : 0 < INR (b_samples c)) by (apply lt_0_INR; exact HB). assert (Q : 0 < 10 ^ 6 / INR (b_samples c)) by (apply Rdiv_lt_0_compat; [apply pow_lt; lra|exact BP]).
  assert (U : / INR (ups c) <= 1). { rewrite <- Rinv_1. apply Rinv_le_contravar; [lra|]. apply (le_INR 1). lia. }
  destruct (Nat.lt_ge_cases (length bufs) (ell_est c)) as [L|L].
  { destruct (not_yet c H1 H2 _ _ _ E L) as (-> & _ & _). pose proof (pos_INR (sro_max c)). split; nra. }
  assert (G : exists g, sro_of c g = Ok (sro s)).
  { destruct bufs as [|b0 bufs0] eqn:EB using rev_ind.
    - exfalso. cbn [length] in L. unfold ell_est, ell_corr, cont_frames in L. lia.
    - clear IHbufs0. apply updates_last in E as (s1 & E1 & E). destruct (ell_of c H1 H2 _ _ _ E1) as (A & _ & _). rewrite app_length in L. cbn [length] in L.
      destruct (update_inv c _ _ _ _ _ E) as (_ & _ & [W|[W|W]]); [unfold ell_est in *; lia|lia|]. destruct W as (_ & _ & W & _). eexists; exact W. }
  destruct G as (g & G). destruct (sro_of_range c H1 g) as (o & EO & R1 & R2). rewrite G in EO. injection EO as <-.
  destruct (lambda_bounds c) as [_ LB]. set (b := INR (b_samples c)) in *. set (l := INR (lambda c)) in *. set (m := INR (sro_max c)) in *.
  assert (T : l * (10 ^ 6 / b) <= m + 10 ^ 6 / b).
  { apply Rle_trans with ((b * m / 10 ^ 6 + 1) * (10 ^ 6 / b)); [apply Rmult_le_compat_r; lra|]. right. field. lra. }
  split.
  - eapply Rle_trans; [|exact R1]. replace (- l / b * 10 ^ 6) with (- (l * (10 ^ 6 / b))) by (field; lra). lra.
  - eapply Rle_trans; [exact R2|]. replace ((l + 1 - / INR (ups c)) / b * 10 ^ 6) with (l * (10 ^ 6 / b) + (1 - / INR (ups c)) * (10 ^ 6 / b)) by (unfold Rdiv; ring). nra.
Qed.
(** A silent signal is not reported as synchronous: the estimate is then below the most
    negative offset asked for, and the time offset is the largest negative one. *)
Theorem C89_silence_refuted : forall c tdoa bufs s, usable c -> (0 < b_samples c)%nat ->
  (forall b n, In b bufs -> (n < size c)%nat -> fst b n = 0) -> (ell_est c <= length bufs)%nat ->
  updates c tdoa (st0 c) bufs = Ok s -> sro s < - INR (sro_max c) /\ sto s = - INR (half c - 1).
Proof.
  intros c tdoa bufs s (H1 & H2 & H3) HB HZ L E. destruct (silent_run c H1 H2 _ _ _ HZ E) as [_ F]. destruct F as [F1 F2]; [exact L|unfold ell_est, ell_corr, cont_frames in L; lia|].
  split; [|exact F2]. rewrite F1. assert (BP : 0 < INR (b_samples c)) by (apply lt_0_INR; exact HB). destruct (lambda_bounds c) as [LB _].
  assert (Q : 0 < 10 ^ 6 / INR (b_samples c)) by (apply Rdiv_lt_0_compat; [apply pow_lt; lra|exact BP]).
  replace (- INR (lambda c) / INR (b_samples c) * 10 ^ 6) with (- (INR (lambda c) * (10 ^ 6 / INR (b_samples c)))) by (field; lra). apply Ropp_lt_contravar.
  apply Rmult_lt_compat_r with (r := 10 ^ 6 / INR (b_samples c)) in LB; [|exact Q].
  replace (INR (b_samples c) * INR (sro_max c) / 10 ^ 6 * (10 ^ 6 / INR (b_samples c))) with (INR (sro_max c)) in LB by (field; lra). exact LB.
Qed.
(** ... which drives the simple controller to its limit within ten frames *)
Theorem C89_silence_saturates_refuted : forall r n, r <= -1000 -> (10 <= n)%nat -> snd (simple_run (repeat (1, r) n)) = -100.
Proof.
  intros r n Hr Hn. assert (G : forall i, simple_run (repeat (1, r) i) = ((if Nat.eqb i 0 then 0 else r), snd (simple_run (repeat (1, r) i))) /\ snd (simple_run (repeat (1, r) i)) <= Rmax (-100) (- 10 * INR i) /\ -100 <= snd (simple_run (repeat (1, r) i))).
  { induction i as [|i IH]. { cbn [repeat simple_run fold_left fst snd Nat.eqb INR]. split; [reflexivity|]. split; [|lra]. rewrite Rmult_0_r. apply Rmax_r. }
    assert (ES : repeat (1, r) (S i) = repeat (1, r) i ++ [(1, r)]) by (cbn [repeat]; apply repeat_cons).
    destruct IH as (I1 & I2 & I3). assert (ST : simple_run (repeat (1, r) (S i)) = simple_ctrl (simple_run (repeat (1, r) i)) 1 r).
    { rewrite ES. unfold simple_run. rewrite fold_left_app. reflexivity. }
    rewrite ST. set (p := simple_run (repeat (1, r) i)) in *. unfold simple_ctrl. cbv zeta. cbn [fst snd Nat.eqb].
    replace ((1 - 1) * fst p + 1 * r) with r by ring. split; [reflexivity|]. rewrite S_INR.
    unfold Rmax in *. destruct (Rle_dec (-100) (-10 * INR i)); destruct (Rle_dec (-100) (-10 * (INR i + 1)));
      destruct (Rlt_dec (snd p + / 100 * r) (-100)); try destruct (Rlt_dec 100 (snd p + / 100 * r)); lra. }
  destruct (G n) as (_ & A & B). assert (INR 10 <= INR n) by (apply le_INR; exact Hn). replace (INR 10) with 10 in H by (cbn [INR]; ring).
  unfold Rmax in A. destruct (Rle_dec (-100) (-10 * INR n)); lra.
Qed.
(** The estimates do not depend on the levels of the two signals, as long as no bin falls
    below the floor. *)
Theorem C89_gains : forall c tdoa bufs gains s s', usable c -> 0 < floor_abs c -> length gains = length bufs ->
  (forall g, In g gains -> 0 < fst g /\ 0 < snd g) ->
  (forall i k, (i < length bufs)%nat -> (k < size c)%nat ->
    let b := nth i bufs ((fun _ => 0), (fun _ => 0)) in loud c b k /\ loud c (gained (nth i gains (1, 1)) b) k) ->
  updates c tdoa (st0 c) bufs = Ok s -> updates c tdoa (st0 c) (map (fun p => gained (fst p) (snd p)) (combine gains bufs)) = Ok s' ->
  sro s' = sro s /\ sto s' = sto s.
Proof.
  intros c tdoa bufs gains s s' _ Hf HL HG HB E E'.
  assert (F : Forall2 (fun b b' => agree c (phat c (fst b) (snd b)) (phat c (fst b') (snd b'))) bufs (map (fun p => gained (fst p) (snd p)) (combine gains bufs))).
  { clear E E' s s'. revert gains HL HG HB. induction bufs as [|b bufs IH]; intros [|g gains] HL HG HB; cbn [length] in HL; try discriminate; cbn [combine map]; constructor.
    - intros k Hk. cbn [fst snd]. symmetry. destruct (HB O k ltac:(cbn [length]; lia) Hk) as [B1 B2]. cbn [nth] in B1, B2. destruct (HG g (or_introl eq_refl)). apply (phat_gain c g b k); assumption.
    - apply IH; [lia|intros; apply HG; right; assumption|]. intros i k Hi Hk. exact (HB (S i) k ltac:(cbn [length]; lia) Hk). }
  pose proof (updates_same c tdoa _ _ F _ _ _ _ (same_refl c (st0 c)) E E') as (_ & _ & _ & _ & _ & _ & A & B). auto.
Qed.
(** What is reported: the position of the peak of the correlation of the changes of phase,
    the latest with the largest weight; those before the correlation starts do not count. *)
Lemma tl_skipn {A} (l : list A) : forall m, tl (skipn m l) = skipn (S m) l.
Proof. induction l as [|x l IH]; intros [|m]; [reflexivity|reflexivity|reflexivity|]. exact (IH m). Qed.
Lemma run_state c tdoa B : usable c -> (0 < accum_frames c)%nat -> forall n s, updates c tdoa (st0 c) (map B (seq 0 (S n))) = Ok s ->
  gcsd1 s = smoothed c B n /\ cont s = skipn (S n) (repeat zeros (cont_frames c) ++ map (smoothed c B) (seq 0 (S n))) /\
  (forall k, gcsd2 s k = mask c (fun k => csum (S n + 1 - ell_corr c) (fun d => cr ((1 - alpha2 c) * alpha2 c ^ d) * second c B (n - d) k)%cx) k).
Proof.
  intros (H1 & H2 & H3) HA. assert (EC : (2 <= ell_corr c)%nat) by (unfold ell_corr, cont_frames; lia).
  assert (CC : cont_frames c = S (accum_frames c)) by (unfold cont_frames; lia).
  induction n as [|n IH]; intros s E.
  - change (map B (seq 0 1)) with ([] ++ [B O]) in E. apply updates_last in E as (s1 & E1 & E). injection E1 as <-.
    destruct (update_inv c _ _ _ _ _ E) as (A1 & A2 & [Q|[Q|Q]]); [|exfalso; cbn [ell st0] in Q; lia|exfalso; unfold ell_est in Q; cbn [ell st0] in Q; lia].
    split; [rewrite A1; reflexivity|]. split.
    + rewrite A2, A1. cbn [st0 cont seq map]. rewrite CC. reflexivity.
    + intros k. destruct Q as (_ & -> & _). replace (1 + 1 - ell_corr c)%nat with O by lia. cbn [st0 gcsd2 csum]. unfold mask, zeros. destruct (masked c k); reflexivity.
  - assert (ES : map B (seq 0 (S (S n))) = map B (seq 0 (S n)) ++ [B (S n)]) by (rewrite (seq_S (S n)), map_app; reflexivity). rewrite ES in E.
    apply updates_last in E as (s1 & E1 & E). destruct (IH s1 E1) as (I1 & I2 & I3). destruct (ell_of c H1 H2 _ _ _ E1) as (L1 & L2 & _). rewrite map_length, seq_length in L1, L2.
    cbn [Nat.ltb Nat.leb] in L2. destruct (update_inv c _ _ _ _ _ E) as (A1 & A2 & Q).
    assert (G1 : gcsd1 s = smoothed c B (S n)) by (rewrite A1; unfold g1_of; rewrite L2, I1; reflexivity).
    assert (G2 : cont s = skipn (S (S n)) (repeat zeros (cont_frames c) ++ map (smoothed c B) (seq 0 (S (S n))))).
    { rewrite A2, I2, G1. rewrite (seq_S (S n)), map_app, app_assoc. cbn [map Nat.add]. set (l := repeat zeros (cont_frames c) ++ map (smoothed c B) (seq 0 (S n))).
      assert (LL : length l = (cont_frames c + S n)%nat) by (unfold l; rewrite app_length, repeat_length, map_length, seq_length; reflexivity).
      rewrite (skipn_app (S (S n)) l). replace (S (S n) - length l)%nat with O by lia. rewrite skipn_O. f_equal. apply tl_skipn. }
    split; [exact G1|]. split; [exact G2|]. intros k.
    assert (STEP : (ell_corr c <= S (S n))%nat -> gcsd2 s = g2_of c s1 (cont s) -> gcsd2 s k = mask c (fun k => csum (S (S n) + 1 - ell_corr c) (fun d => cr ((1 - alpha2 c) * alpha2 c ^ d) * second c B (S n - d) k)%cx) k).
    { intros HE ->. unfold g2_of. unfold mask at 1 2. destruct (masked c k) eqn:MK; [reflexivity|]. unfold average. rewrite L2, I3. unfold mask. rewrite MK.
      replace (S (S n) + 1 - ell_corr c)%nat with (S (S n + 1 - ell_corr c)) by lia. rewrite csum_S_l.
      assert (AC : act2_of (cont s) k = second c B (S n) k).
      { unfold act2_of, second. f_equal.
        - rewrite A2, last_last, G1. reflexivity.
        - f_equal. rewrite G2. set (l := repeat zeros (cont_frames c) ++ map (smoothed c B) (seq 0 (S (S n)))).
          assert (LL : length l = (cont_frames c + S (S n))%nat) by (unfold l; rewrite app_length, repeat_length, map_length, seq_length; reflexivity).
          assert (HD : forall (m : nat) (l : list (nat -> cx)), hd zeros (skipn m l) = nth m l zeros).
          { clear. induction m as [|m IH]; intros [|x l]; cbn [skipn hd nth]; try reflexivity. apply IH. }
          rewrite HD. unfold l. assert (CE : (cont_frames c <= S (S n))%nat) by (unfold ell_corr in HE; lia).
          rewrite app_nth2 by (rewrite repeat_length; exact CE). rewrite repeat_length. rewrite (nth_map_seq (smoothed c B)) by lia.
          f_equal. unfold cont_frames. lia. }
      rewrite AC. cbn [pow]. rewrite Rmult_1_r, Nat.sub_0_r.
      replace (csum (S n + 1 - ell_corr c) (fun i => cr ((1 - alpha2 c) * (alpha2 c * alpha2 c ^ i)) * second c B (S n - S i) k))%cx
        with (cr (alpha2 c) * csum (S n + 1 - ell_corr c) (fun d => cr ((1 - alpha2 c) * alpha2 c ^ d) * second c B (n - d) k))%cx; [ring|].
      rewrite <- csum_scale. apply csum_ext. intros i _. cbn [Nat.sub].
      replace ((1 - alpha2 c) * (alpha2 c * alpha2 c ^ i)) with (alpha2 c * ((1 - alpha2 c) * alpha2 c ^ i)) by ring. rewrite (cr_mul (alpha2 c)). ring. }
    destruct Q as [(Q & QA & _)|[(Q & QA & _)|(Q & QA & _)]].
    + rewrite QA, I3. replace (S (S n) + 1 - ell_corr c)%nat with O by lia. replace (S n + 1 - ell_corr c)%nat with O by lia. unfold mask. cbn [csum]. reflexivity.
    + apply STEP; [lia|exact QA].
    + apply STEP; [unfold ell_est in Q; lia|exact QA].
Qed.
Theorem C89_weighted : forall c tdoa B n s, usable c -> (0 < accum_frames c)%nat -> (ell_est c <= n)%nat ->
  updates c tdoa (st0 c) (map B (seq 0 n)) = Ok s ->
  sro_of c (correlation c (lambda c) (mask c (fun k => csum (n + 1 - ell_corr c)
    (fun d => cr ((1 - alpha2 c) * alpha2 c ^ d) * second c B (n - 1 - d) k)%cx))) = Ok (sro s).
Proof.
  intros c tdoa B n s HU HA L E. assert (N0 : (0 < n)%nat) by (unfold ell_est, ell_corr, cont_frames in L; lia). destruct n as [|n]; [lia|].
  destruct (run_state c tdoa B HU HA n s E) as (_ & _ & G). destruct HU as (H1 & H2 & H3).
  assert (ES : map B (seq 0 (S n)) = map B (seq 0 n) ++ [B n]) by (rewrite seq_S, map_app; reflexivity). rewrite ES in E.
  apply updates_last in E as (s1 & E1 & E). destruct (ell_of c H1 H2 _ _ _ E1) as (L1 & _ & _). rewrite map_length, seq_length in L1.
  destruct (update_inv c _ _ _ _ _ E) as (_ & _ & [Q|[Q|Q]]); [unfold ell_est in *; lia|lia|]. destruct Q as (_ & _ & Q & _). rewrite <- Q.
  apply sro_of_ext. intros j. apply correlation_ext. intros k Hk. rewrite G. replace (S n - 1)%nat with n by lia. reflexivity.
Qed.
(** A correlation with a single value other than zero is located exactly, wherever it is,
    although the window of the upsampling suppresses low frequencies. *)
Theorem C89_single_peak : forall c a j0, (0 < ups c)%nat -> 0 < a -> (j0 <= 2 * lambda c)%nat -> (forall i, (i < 2 * lambda c + 1)%nat -> 0 < kw c i) ->
  sro_of c (fun j => if Nat.eqb j j0 then a else 0) = Ok ((INR j0 - INR (lambda c)) / INR (b_samples c) * 10 ^ 6).
Proof. intros c a j0 Hp Ha Hj Hk. exact (sro_single c a j0 Hp Hj Ha Hk). Qed.

(** For one signal at two levels the correlation is symmetric and largest at lag zero only. *)
Lemma geometric_sum al n : sumR n (fun d => (1 - al) * al ^ d) = 1 - al ^ n.
Proof. induction n as [|n IH]; cbn [sumR pow]; [ring|]. rewrite IH. ring. Qed.
Lemma pow_lt_1' al n : 0 <= al < 1 -> (0 < n)%nat -> al ^ n < 1.
Proof. intros H Hn. destruct n as [|n]; [lia|]. cbn [pow]. assert (0 <= al ^ n <= 1). { clear Hn. induction n as [|n IH]; cbn [pow]; [lra|]. nra. } nra. Qed.
Theorem C89_synchronous : forall c tdoa B (g : nat -> R) n s, usable c -> (4 <= half c)%nat -> (0 < accum_frames c)%nat -> 0 < floor_abs c -> 0 <= alpha2 c < 1 -> (ell_corr c <= n)%nat ->
  (forall i k, 0 < g i /\ fst (B i) k = g i * snd (B i) k) -> (forall i k, (k < size c)%nat -> loud c (B i) k) ->
  updates c tdoa (st0 c) (map B (seq 0 n)) = Ok s -> forall j, (j <= 2 * lambda c)%nat ->
  let corr := correlation c (lambda c) (gcsd2 s) in corr j = corr (2 * lambda c - j)%nat /\ (j <> lambda c -> corr j < corr (lambda c)).
Proof.
  intros c tdoa B g n s HU H4 HA Hf Ha L HB HL E j Hj corr. destruct n as [|n]; [exfalso; unfold ell_corr, cont_frames in L; lia|].
  destruct (run_state c tdoa B HU HA n s E) as (_ & _ & G). destruct HU as (H1 & H2 & H3).
  assert (P1 : forall i k, (k < size c)%nat -> phat c (fst (B i)) (snd (B i)) k = cone).
  { intros i k Hk. pose proof (HL i k Hk) as Q. unfold loud in Q. unfold phat. cbv zeta. destruct (Rlt_dec _ _) as [W|_]; [exfalso; lra|].
    assert (SP : spectrum c (fst (B i)) k = (cr (g i) * spectrum c (snd (B i)) k)%cx).
    { rewrite <- spectrum_scale. unfold spectrum. apply dft_ext. intros m _. rewrite (proj2 (HB i m)). reflexivity. }
    rewrite SP in *. set (X := spectrum c (snd (B i)) k) in *. destruct (HB i k) as [Gp _]. clear - Q Hf Gp.
    assert (EX : (cr (g i) * X * conj X)%cx = cr (g i * (re X * re X + im X * im X))) by (apply cx_eq; cbn [re im cmul cr conj]; ring).
    rewrite EX in *. set (v := g i * (re X * re X + im X * im X)) in *. assert (V0 : 0 <= v) by (unfold v; nra).
    assert (CV : cabs (cr v) = v) by (unfold cabs; cbn [re im cr]; replace (v * v + 0 * 0) with (v * v) by ring; apply sqrt_square; exact V0).
    rewrite CV in *. apply cx_eq; cbn [re im cmul cr cone]; field; lra. }
  assert (S1 : forall i k, (k < size c)%nat -> smoothed c B i k = cone).
  { induction i as [|i IH]; intros k Hk; cbn [smoothed]; [apply P1; exact Hk|]. rewrite IH, P1 by exact Hk. apply cx_eq; cbn [re im cmul cadd cr cone]; ring. }
  set (m := (S n + 1 - ell_corr c)%nat) in *. assert (M0 : (0 < m)%nat) by (unfold m; lia).
  assert (CV : forall i, corr i = (1 - alpha2 c ^ m) * (/ INR (size c) * kernel c (INR i - INR (lambda c)))).
  { intros i. unfold corr. rewrite <- (correlation_delay c H3 (lambda c) i (lambda c)) by lia.
    rewrite (correlation_ext c _ _ (fun k => cr (1 - alpha2 c ^ m) * mask c (fun k => cis (- (2 * PI * INR k * (INR (lambda c) - INR (lambda c)) / INR (size c)))) k)%cx).
    2:{ intros k Hk. rewrite G. unfold mask. destruct (masked c k); [ring|]. 
        replace (- (2 * PI * INR k * (INR (lambda c) - INR (lambda c)) / INR (size c))) with 0 by (unfold Rdiv; ring). rewrite cis_0.
        rewrite (csum_ext _ _ (fun d => cr ((1 - alpha2 c) * alpha2 c ^ d))). 2:{ intros d _. unfold second. rewrite !S1 by exact Hk. apply cx_eq; cbn [re im cmul cr conj cone]; ring. }
        rewrite csum_cr, geometric_sum. apply cx_eq; cbn [re im cmul cr cone]; ring. }
    unfold correlation, idft. rewrite (csum_ext _ _ (fun k => cr (1 - alpha2 c ^ m) * (mask c (fun k => cis (- (2 * PI * INR k * (INR (lambda c) - INR (lambda c)) / INR (size c)))) k * cis (2 * PI * INR k * INR ((half c - lambda c + i + half c) mod size c) / INR (size c))))%cx) by (intros; ring).
    rewrite csum_scale. cbn [re im cmul cr]. ring. }
  assert (A1 : alpha2 c ^ m < 1) by (apply pow_lt_1'; assumption). pose proof (size_pos c H3) as N0. assert (NI : 0 < / INR (size c)) by (apply Rinv_0_lt_compat; exact N0).
  split.
  - rewrite !CV. do 2 f_equal. rewrite <- kernel_even. f_equal. rewrite minus_INR, mult_INR by lia. cbn [INR]. ring.
  - intros N. rewrite !CV. apply Rmult_lt_compat_l; [lra|]. apply Rmult_lt_compat_l; [exact NI|]. replace (INR (lambda c) - INR (lambda c)) with 0 by ring.
    assert (D : 0 < Rabs (INR j - INR (lambda c)) < INR (size c)).
    { assert (INR j < INR (size c)) by (apply lt_INR; unfold size; lia). assert (INR (lambda c) < INR (size c)) by (apply lt_INR; unfold size; lia).
      pose proof (pos_INR j). pose proof (pos_INR (lambda c)). split; [|apply Rabs_def1; lra]. apply Rabs_pos_lt. intros Z. apply N. apply INR_eq. lra. }
    pose proof (kernel_lt c H3 (INR j - INR (lambda c)) 1 ltac:(unfold size; lia) D (or_introl eq_refl)) as K. lra.
Qed.

(** ** C90 *)
(** The time offset is within the frame, up to the time difference of arrival. *)
Theorem C90_range : forall c tdoa bufs s, usable c -> updates c tdoa (st0 c) bufs = Ok s ->
  Rabs (sto s) <= INR (half c) - 1 \/ Rabs (sto s - tdoa * INR (fs c)) <= INR (half c) - 1.
Proof.
  intros c tdoa bufs s (H1 & H2 & H3) E. assert (U : INR (upsilon c) = INR (half c) - 1) by (unfold upsilon; rewrite minus_INR by lia; reflexivity).
  assert (U0 : 0 <= INR (upsilon c)) by apply pos_INR.
  destruct (Nat.lt_ge_cases (length bufs) (ell_est c)) as [L|L].
  { left. destruct (not_yet c H1 H2 _ _ _ E L) as (_ & -> & _). rewrite Rabs_R0. lra. }
  destruct bufs as [|b0 bufs0] eqn:EB using rev_ind.
  - exfalso. cbn [length] in L. unfold ell_est, ell_corr, cont_frames in L. lia.
  - clear IHbufs0. apply updates_last in E as (s1 & E1 & E). destruct (ell_of c H1 H2 _ _ _ E1) as (A & _ & _). rewrite app_length in L. cbn [length] in L.
    destruct (update_inv c _ _ _ _ _ E) as (_ & _ & [W|[W|W]]); [unfold ell_est in *; lia|lia|]. destruct W as (_ & _ & _ & _ & W).
    destruct (sto_of_range c H1 tdoa (gccf1 s)) as (d & ED & R). rewrite W in ED. injection ED as <-. rewrite <- U. destruct R as [R|R]; [left|right]; apply Rabs_le; lra.
Qed.
(** A pure delay of a whole number of samples is found exactly, with its sign (positive: the
    first signal is late), whatever the weight of the correlation. *)
Theorem C90_delay : forall c tdoa a (d : Z), (4 <= half c)%nat -> (Z.abs d < Z.of_nat (half c) - 1)%Z -> a <> 0 ->
  sto_of c tdoa (fun j => a * correlation c (half c - 1) (mask c (fun k => cis (- (2 * PI * INR k * IZR d / INR (2 * half c))))) j) = Ok (IZR d + tdoa * INR (fs c)).
Proof.
  intros c tdoa a d H4 Hd Ha. assert (ED : exists j0, (0 < j0 < 2 * upsilon c)%nat /\ IZR d = INR j0 - INR (upsilon c)).
  { exists (Z.to_nat (d + Z.of_nat (upsilon c))). unfold upsilon in *. split; [lia|]. rewrite !INR_IZR_INZ, Z2Nat.id by lia. rewrite plus_IZR. ring. }
  destruct ED as (j0 & Hj & ED). rewrite ED. exact (sto_delay c ltac:(lia) tdoa a j0 ltac:(unfold size; lia) Hj Ha).
Qed.
(** Removing an accumulated shift of a whole number of samples moves the correlation by it. *)
Theorem C90_whole_samples : forall c X (t : Z) j j', (3 <= half c)%nat -> (j <= 2 * (half c - 1))%nat -> (Z.of_nat j + t = Z.of_nat j')%Z ->
  correlation c (half c - 1) (mask c (unshift c (IZR t) X)) j = correlation c (half c - 1) (mask c X) j'.
Proof. intros c X t j j' H3 Hj H. apply (whole_samples c H3); [lia|lia|exact H]. Qed.
(** Other shifts are not removed properly: for the spectra of real signals the correlation is
    multiplied by the cosine of the shift ... *)
Theorem C90_attenuated_refuted : forall c X t m j, (3 <= half c)%nat -> (200 <= 2 * half c)%nat ->
  (forall k, (0 < k < 2 * half c)%nat -> X (2 * half c - k)%nat = conj (X k)) -> (forall k, (k < 2 * half c)%nat -> cabs (X k) <= 1) ->
  Rabs (correlation c m (mask c (unshift c t X)) j) <= Rabs (cos (PI * t)).
Proof.
  intros c X t m j H3 H200 HX H1. apply (attenuated_bound c H3); [|exact HX|exact H1]. unfold low_bin, size. apply Nat.div_le_lower_bound; lia.
Qed.
(** ... so that a frame for which it is half a sample off a whole number changes nothing,
    whatever the signals. *)
Theorem C90_half_sample_refuted : forall c tdoa bufs b s s' (z : Z), usable c -> (200 <= 2 * half c)%nat -> 0 < alpha3 c -> (ell_est c <= length bufs)%nat ->
  updates c tdoa (st0 c) bufs = Ok s -> updates c tdoa (st0 c) (bufs ++ [b]) = Ok s' ->
  sro s' / 10 ^ 6 * INR (shift c * length bufs) = IZR z + 1 / 2 -> sto s' = sto s.
Proof.
  intros c tdoa bufs b s s' z (H1 & H2 & H3) H200 Ha L E E' Hz. apply (half_frame c H1 H2 H3 tdoa bufs b s s' z); [|exact Ha| |exact E|exact E'|].
  - unfold low_bin, size. apply Nat.div_le_lower_bound; lia.
  - split; [unfold ell_est, ell_corr, cont_frames; lia|exact L].
  - rewrite mult_INR in Hz. rewrite <- Hz. ring.
Qed.

(** ** Cases *)
(** 8 Hz, shift 4, FFT size 200, one second: two frames, lags up to one sample *)
Definition ex_cfg : config := mkCfg 8 4 100 1 (53 / 100) (99 / 100) (99 / 100) 0 1 (/ 1000) 1 4 (fun _ => 1).
Lemma ex_lambda : lambda ex_cfg = 1%nat.
Proof. unfold lambda. replace (b_samples ex_cfg * sro_max ex_cfg)%nat with 8%nat by reflexivity. rewrite Nat.div_small; [reflexivity|]. change (10 ^ 6)%nat with (10 * (10 * 10 ^ 4))%nat. assert (0 < 10 ^ 4)%nat by (apply Nat.neq_0_lt_0, Nat.pow_nonzero; lia). lia. Qed.
Example C89_ex_usable : usable ex_cfg /\ b_samples ex_cfg = 8%nat /\ accum_frames ex_cfg = 2%nat /\ ell_est ex_cfg = 53%nat.
Proof. unfold usable. rewrite ex_lambda. cbn [ups half ex_cfg]. repeat split; try lia. Qed.
Definition no_sound : (nat -> R) * (nat -> R) := ((fun _ => 0), (fun _ => 0)).
Example C89_ex_silence : exists s, updates ex_cfg 0 (st0 ex_cfg) (repeat no_sound 53) = Ok s /\ sro s < -1.
Proof.
  destruct C89_ex_usable as (U & EB & EA & EE). destruct (C89_defined ex_cfg 0 (repeat no_sound 53) U) as (s & E). exists s. split; [exact E|].
  destruct (C89_silence_refuted ex_cfg 0 (repeat no_sound 53) s U ltac:(rewrite EB; lia)) as [A _]; [|rewrite EE, repeat_length; lia|exact E|].
  - intros b n Hb _. apply repeat_spec in Hb as ->. reflexivity.
  - replace (INR (sro_max ex_cfg)) with 1 in A by reflexivity. lra.
Qed.
(** the hypotheses of [C90_half_sample_refuted]: silence, then any sound *)
Example C90_ex_half : exists s s', updates ex_cfg 0 (st0 ex_cfg) (repeat no_sound 53) = Ok s /\ updates ex_cfg 0 (st0 ex_cfg) (repeat no_sound 53 ++ [no_sound]) = Ok s' /\
  sro s' / 10 ^ 6 * INR (shift ex_cfg * 53) = IZR (-27) + 1 / 2.
Proof.
  destruct C89_ex_usable as (U & EB & EA & EE). destruct (C89_defined ex_cfg 0 (repeat no_sound 53) U) as (s & E). destruct (C89_defined ex_cfg 0 (repeat no_sound 53 ++ [no_sound]) U) as (s' & E').
  exists s, s'. split; [exact E|]. split; [exact E'|]. destruct U as (H1 & H2 & H3).
  destruct (silent_run ex_cfg H1 H2 0 (repeat no_sound 53 ++ [no_sound]) s') as [_ F]; [|exact E'|].
  - intros b n Hb _. apply in_app_or in Hb as [Hb|[<-|[]]]; [apply repeat_spec in Hb as ->|]; reflexivity.
  - destruct F as [F _]; [rewrite EE, app_length, repeat_length; cbn [length]; lia|rewrite app_length, repeat_length; cbn [length]; lia|]. rewrite F, ex_lambda, EB.
    cbn [shift ex_cfg]. replace (INR (4 * 53)) with 212 by (rewrite INR_IZR_INZ; reflexivity). replace (INR 8) with 8 by (cbn [INR]; ring). replace (INR 1) with 1 by reflexivity. field.
Qed.
Example C90_ex_delay : sto_of ex_cfg 0 (fun j => 3 * correlation ex_cfg 99 (mask ex_cfg (fun k => cis (- (2 * PI * INR k * IZR (-7) / INR 200)))) j) = Ok (-7).
Proof.
  replace (Ok (-7)) with (Ok (IZR (-7) + 0 * INR (fs ex_cfg))) by (f_equal; ring).
  apply (C90_delay ex_cfg 0 3 (-7)); [cbn [half ex_cfg]; lia|cbn [half ex_cfg]; lia|lra].
Qed.
Example C89_ex_peak : sro_of ex_cfg (fun j => if Nat.eqb j 2 then 5 else 0) = Ok (125000).
Proof.
  rewrite C89_single_peak; [|cbn [ups ex_cfg]; lia|lra|rewrite ex_lambda; lia|intros; cbn [kw ex_cfg]; lra].
  destruct C89_ex_usable as (_ & -> & _). rewrite ex_lambda. f_equal. cbn [INR]. field.
Qed.
Definition click (a : R) (n : nat) : R := if Nat.eqb n 100 then a else 0.
Lemma click_spectrum a k : spectrum ex_cfg (click a) k = (cr a * cis (- (2 * PI * INR k * INR 100 / INR (size ex_cfg))))%cx.
Proof.
  unfold spectrum, dft. rewrite (csum_single _ _ 100%nat).
  - unfold click. rewrite Nat.eqb_refl. unfold blackman. replace (INR (size ex_cfg)) with 200 by (unfold size; cbn [half ex_cfg]; rewrite INR_IZR_INZ; reflexivity).
    replace (INR 100) with 100 by (rewrite INR_IZR_INZ; reflexivity). replace (2 * PI * 100 / 200) with PI by field. replace (4 * PI * 100 / 200) with (2 * PI) by field.
    rewrite cos_PI, cos_2PI. f_equal. f_equal. lra.
  - unfold size; cbn [half ex_cfg]; lia.
  - intros i _ Hi. unfold click. rewrite (proj2 (Nat.eqb_neq i 100) Hi). apply cx_eq; cbn [re im cmul cr czero]; ring.
Qed.
Example C89_ex_synchronous : exists s, updates ex_cfg 0 (st0 ex_cfg) (map (fun _ => (click 2, click 1)) (seq 0 60)) = Ok s /\
  correlation ex_cfg 1 (gcsd2 s) 0 = correlation ex_cfg 1 (gcsd2 s) 2 /\ correlation ex_cfg 1 (gcsd2 s) 0 < correlation ex_cfg 1 (gcsd2 s) 1.
Proof.
  destruct C89_ex_usable as (U & EB & EA & EE). destruct (C89_defined ex_cfg 0 (map (fun _ => (click 2, click 1)) (seq 0 60)) U) as (s & E). exists s. split; [exact E|].
  destruct (C89_synchronous ex_cfg 0 (fun _ => (click 2, click 1)) (fun _ => 2) 60 s U) with (j := 0%nat) as [A1 A2].
  - cbn [half ex_cfg]; lia.
  - rewrite EA. lia.
  - cbn [floor_abs ex_cfg]. lra.
  - cbn [alpha2 ex_cfg]. lra.
  - unfold ell_est in EE. cbn [settle ex_cfg] in EE. lia.
  - intros i k. split; [lra|]. cbn [fst snd]. unfold click. destruct (Nat.eqb k 100); lra.
  - intros i k _. unfold loud. cbn [fst snd]. rewrite !click_spectrum. set (t := - _).
    replace (cr 2 * cis t * conj (cr 1 * cis t))%cx with (cr 2).
    + unfold cabs. cbn [re im cr floor_abs ex_cfg]. replace (2 * 2 + 0 * 0) with (2 * 2) by ring. rewrite sqrt_square by lra. lra.
    + pose proof (sin2_cos2 t) as Q. unfold Rsqr in Q. apply cx_eq; cbn [re im cmul cr conj cis]; nra.
  - exact E.
  - rewrite ex_lambda. lia.
  - rewrite ex_lambda in *. split; [exact A1|apply A2; lia].
Qed.
Print Assumptions C89_weighted.
Print Assumptions C89_synchronous.
Print Assumptions C90_half_sample_refuted.
