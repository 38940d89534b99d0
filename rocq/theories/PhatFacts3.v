(** Further facts about the DXCP-PhaT estimator: gains, single peaks, shifts. *)
From Verif Require Import Base BaseFacts Cx CxFacts ChunkSpec ChunkFacts WolaFacts Phat PhatFacts PhatFacts2.
From Coq Require Import Reals Lra.
Local Open Scope R_scope.

Lemma cabs_scale a x : 0 <= a -> cabs (cr a * x)%cx = a * cabs x.
Proof.
  intros H. unfold cabs. cbn [re im cmul cr].
  replace ((a * re x - 0 * im x) * (a * re x - 0 * im x) + (a * im x + 0 * re x) * (a * im x + 0 * re x)) with ((a * a) * (re x * re x + im x * im x)) by ring.
  rewrite sqrt_mult; [|nra|nra]. rewrite sqrt_square by exact H. reflexivity.
Qed.

Section Facts3.
Variable c : config.

Lemma spectrum_scale a x k : spectrum c (fun n => a * x n) k = (cr a * spectrum c x k)%cx.
Proof.
  unfold spectrum, dft. rewrite <- csum_scale. apply csum_ext. intros m _.
  apply cx_eq; cbn [re im cmul cr]; ring.
Qed.
(** not limited by the floor: the phases only *)
Definition loud (b : (nat -> R) * (nat -> R)) (k : nat) : Prop := floor_abs c <= cabs (spectrum c (fst b) k * conj (spectrum c (snd b) k))%cx.
Definition gained (g : R * R) (b : (nat -> R) * (nat -> R)) : (nat -> R) * (nat -> R) := ((fun n => fst g * fst b n), (fun n => snd g * snd b n)).
Lemma phat_gain g b k : 0 < floor_abs c -> 0 < fst g -> 0 < snd g -> loud b k -> loud (gained g b) k ->
  phat c (fst (gained g b)) (snd (gained g b)) k = phat c (fst b) (snd b) k.
Proof.
  intros Hf H1 H2 L1 L2. unfold loud in *. unfold phat. cbv zeta.
  destruct (Rlt_dec _ _) as [Q|_]; [exfalso; lra|]. destruct (Rlt_dec _ _) as [Q|_]; [exfalso; lra|]. clear L2.
  cbn [gained fst snd]. rewrite !spectrum_scale. set (X := spectrum c (fst b) k) in *. set (Y := spectrum c (snd b) k) in *.
  assert (E : (cr (fst g) * X * conj (cr (snd g) * Y))%cx = (cr (fst g * snd g) * (X * conj Y))%cx) by (apply cx_eq; cbn [re im cmul cr conj]; ring).
  rewrite E. rewrite cabs_scale by nra. set (P := (X * conj Y)%cx) in *. assert (P0 : 0 < cabs P) by lra.
  apply cx_eq; cbn [re im cmul cr]; field; split; lra.
Qed.

(** ** The estimates depend on the phases only *)
Definition agree (f g : nat -> cx) : Prop := forall k, (k < size c)%nat -> f k = g k.
Lemma upsampled_ext m g h i : (forall j, g j = h j) -> upsampled c m g i = upsampled c m h i.
Proof.
  intros H. unfold upsampled. cbv zeta. assert (D : forall k, dft (2 * m + 1) (fun j => cr (g j)) k = dft (2 * m + 1) (fun j => cr (h j)) k) by (intros k; apply dft_ext; intros; rewrite H; reflexivity).
  rewrite D. f_equal. f_equal. apply sumR_ext. intros k _. rewrite D. reflexivity.
Qed.
Lemma sro_of_ext g h : (forall j, g j = h j) -> sro_of c g = sro_of c h.
Proof. intros H. unfold sro_of. rewrite (map_ext _ (upsampled c (lambda c) h)); [reflexivity|]. intros i. apply upsampled_ext. exact H. Qed.
Lemma sto_of_ext tdoa g h : (forall j, g j = h j) -> sto_of c tdoa g = sto_of c tdoa h.
Proof. intros H. unfold sto_of. rewrite (map_ext _ (fun j => Rabs (h j))); [reflexivity|]. intros i. rewrite H. reflexivity. Qed.
Lemma correlation_ext m X Y j : agree X Y -> correlation c m X j = correlation c m Y j.
Proof. intros H. unfold correlation. rewrite (idft_ext _ X Y); [reflexivity|exact H]. Qed.
Lemma mask_agree X Y : agree X Y -> agree (mask c X) (mask c Y).
Proof. intros H k Hk. unfold mask. rewrite H by exact Hk. reflexivity. Qed.
Lemma average_agree st al f g f' g' : agree f f' -> agree g g' -> agree (average st al f g) (average st al f' g').
Proof. intros H1 H2 k Hk. unfold average. rewrite H1, H2 by exact Hk. reflexivity. Qed.
Definition same (s t : state) : Prop :=
  ell s = ell t /\ started s = started t /\ agree (gcsd1 s) (gcsd1 t) /\ Forall2 agree (cont s) (cont t) /\ agree (gcsd2 s) (gcsd2 t) /\
  (forall j, gccf1 s j = gccf1 t j) /\ sro s = sro t /\ sto s = sto t.
Lemma last_hd_agree l l' : Forall2 agree l l' -> agree (last l zeros) (last l' zeros) /\ agree (hd zeros l) (hd zeros l').
Proof.
  intros F. split; [|destruct F; [intros k _; reflexivity|assumption]].
  induction F as [|x y l l' H F IH]; [intros k _; reflexivity|]. destruct F; [exact H|exact IH].
Qed.
Lemma update_started x1 x2 tdoa s s' : update c x1 x2 tdoa s = Ok s' -> started s' = true /\ ell s' = S (ell s).
Proof.
  unfold update. cbv zeta. destruct (Nat.ltb _ _); [intros E; injection E as <-; auto|]. destruct (Nat.leb _ _); [discriminate|].
  destruct (Nat.ltb _ _); [intros E; injection E as <-; auto|]. destruct (sro_of _ _); [|discriminate]. cbn [bind]. destruct (sto_of _ _ _); [|discriminate]. cbn [bind].
  intros E; injection E as <-; auto.
Qed.
Lemma update_same x1 x2 y1 y2 tdoa s t s' t' : agree (phat c x1 x2) (phat c y1 y2) -> same s t ->
  update c x1 x2 tdoa s = Ok s' -> update c y1 y2 tdoa t = Ok t' -> same s' t'.
Proof.
  intros HP (A1 & A2 & A3 & A4 & A5 & A6 & A7 & A8) ES ET.
  destruct (update_started _ _ _ _ _ ES) as [U1 U2]. destruct (update_started _ _ _ _ _ ET) as [U3 U4].
  destruct (update_inv c _ _ _ _ _ ES) as (S1 & S2 & SQ). destruct (update_inv c _ _ _ _ _ ET) as (T1 & T2 & TQ).
  assert (B1 : agree (gcsd1 s') (gcsd1 t')) by (rewrite S1, T1; unfold g1_of; rewrite A2; apply average_agree; assumption).
  assert (B2 : Forall2 agree (cont s') (cont t')). { rewrite S2, T2. apply Forall2_app; [destruct A4; [constructor|assumption]|constructor; [exact B1|constructor]]. }
  assert (B3 : agree (g2_of c s (cont s')) (g2_of c t (cont t'))).
  { unfold g2_of. rewrite A2. apply mask_agree, average_agree; [exact A5|]. destruct (last_hd_agree _ _ B2) as [H1 H2]. intros k Hk. unfold act2_of. rewrite H1, H2 by exact Hk. reflexivity. }
  assert (B0 : ell s' = ell t' /\ started s' = started t') by (split; congruence). destruct B0 as [B0 B0'].
  destruct SQ as [(Q1 & Q2 & Q3 & Q4 & Q5)|[(Q1 & Q2 & Q3 & Q4 & Q5)|(Q1 & Q2 & Q3 & Q4 & Q5)]];
  destruct TQ as [(R1 & R2 & R3 & R4 & R5)|[(R1 & R2 & R3 & R4 & R5)|(R1 & R2 & R3 & R4 & R5)]]; rewrite A1 in Q1; unfold ell_est in *; try (exfalso; lia).
  - unfold same. rewrite Q2, Q3, Q4, Q5, R2, R3, R4, R5. auto 10.
  - unfold same. rewrite Q2, Q3, Q4, Q5, R2, R3, R4, R5. auto 10.
  - assert (C1 : agree (gcsd2 s') (gcsd2 t')) by (rewrite Q2, R2; exact B3).
    assert (C2 : sro s' = sro t').
    { rewrite (sro_of_ext _ (correlation c (lambda c) (gcsd2 t'))) in Q3 by (intros j; apply correlation_ext; exact C1). congruence. }
    assert (C3 : forall j, gccf1 s' j = gccf1 t' j).
    { intros j. rewrite Q4, R4. unfold cc_of, off_of. cbv zeta. rewrite A1, A2, A6, C2. rewrite (correlation_ext _ _ (mask c (unshift c (sro t' / 10 ^ 6 * INR (shift c) * (INR (ell t) - 1)) (gcsd1 t')))); [reflexivity|].
      apply mask_agree. intros k Hk. unfold unshift. rewrite B1 by exact Hk. reflexivity. }
    assert (C4 : sto s' = sto t') by (rewrite (sto_of_ext tdoa _ _ C3) in Q5; congruence).
    unfold same. auto 10.
Qed.
Lemma same_refl s : same s s.
Proof.
  unfold same. split; [reflexivity|]. split; [reflexivity|]. split; [intros k _; reflexivity|]. split; [|split; [intros k _; reflexivity|auto]].
  induction (cont s) as [|f l IH]; constructor; [intros k _; reflexivity|exact IH].
Qed.
Lemma updates_same tdoa bs bs' : Forall2 (fun b b' => agree (phat c (fst b) (snd b)) (phat c (fst b') (snd b'))) bs bs' ->
  forall s t s' t', same s t -> updates c tdoa s bs = Ok s' -> updates c tdoa t bs' = Ok t' -> same s' t'.
Proof.
  induction 1 as [|b b' bs bs' H F IH]; intros s t s' t' HS ES ET; cbn [updates] in *; [congruence|].
  destruct (update c (fst b) (snd b) tdoa s) as [s1|] eqn:E1; [|discriminate]. destruct (update c (fst b') (snd b') tdoa t) as [t1|] eqn:E2; [|discriminate].
  cbn [bind] in *. exact (IH _ _ _ _ (update_same _ _ _ _ _ _ _ _ _ H HS E1 E2) ES ET).
Qed.

(** ** A single peak *)
Lemma cos_lt_1 x : 0 < x < 2 * PI -> cos x < 1.
Proof.
  intros H. destruct (COS_bound x) as [_ B]. destruct B as [B|B]; [exact B|]. exfalso. apply (cis_ne_1 x H). apply cx_eq; cbn [re im cis cone cr]; [exact B|].
  pose proof (sin2_cos2 x) as Q. unfold Rsqr in Q. rewrite B in Q. nra.
Qed.
Lemma sumR_le n f g : (forall i, (i < n)%nat -> f i <= g i) -> sumR n f <= sumR n g.
Proof. induction n as [|n IH]; intros H; cbn [sumR]; [lra|]. specialize (IH (fun i Hi => H i (Nat.lt_lt_succ_r _ _ Hi))). specialize (H n ltac:(lia)). lra. Qed.
Lemma sumR_lt n f g j : (forall i, (i < n)%nat -> f i <= g i) -> (j < n)%nat -> f j < g j -> sumR n f < sumR n g.
Proof.
  intros H Hj Hlt. induction n as [|n IH]; [lia|]. cbn [sumR]. destruct (Nat.eq_dec j n) as [->|N].
  - pose proof (sumR_le n f g (fun i Hi => H i (Nat.lt_lt_succ_r _ _ Hi))). lra.
  - specialize (IH (fun i Hi => H i (Nat.lt_lt_succ_r _ _ Hi)) ltac:(lia)). specialize (H n ltac:(lia)). lra.
Qed.
Definition single (a : R) (j0 j : nat) : R := if Nat.eqb j j0 then a else 0.
Lemma dft_single n a j0 k : (j0 < n)%nat -> dft n (fun j => cr (single a j0 j)) k = (cr a * cis (- (2 * PI * INR k * INR j0 / INR n)))%cx.
Proof.
  intros H. unfold dft. rewrite (csum_single _ _ j0 H). { unfold single. rewrite Nat.eqb_refl. reflexivity. }
  intros i _ N. unfold single. apply Nat.eqb_neq in N. rewrite N. apply cx_eq; cbn [re im cmul cr czero]; ring.
Qed.
Lemma upsampled_single m a j0 i : (0 < ups c)%nat -> (j0 <= 2 * m)%nat ->
  upsampled c m (single a j0) i = a / INR (2 * m + 1) * (folded c m 0 + sumR m (fun k => 2 * folded c m (S k) * cos (2 * PI * INR (S k) * (INR i - INR (ups c * j0)) / INR ((2 * m + 1) * ups c)))).
Proof.
  intros Hp Hj. unfold upsampled. cbv zeta. rewrite dft_single by lia.
  assert (N0 : INR (2 * m + 1) <> 0) by (apply not_0_INR; lia). assert (P0 : INR (ups c) <> 0) by (apply not_0_INR; lia).
  transitivity (/ INR (2 * m + 1) * (a * folded c m 0 + sumR m (fun k => a * (2 * folded c m (S k) * cos (2 * PI * INR (S k) * (INR i - INR (ups c * j0)) / INR ((2 * m + 1) * ups c)))))).
  - f_equal. f_equal.
    + replace (- (2 * PI * INR 0 * INR j0 / INR (2 * m + 1))) with 0 by (cbn [INR]; field; exact N0). rewrite cis_0. cbn [re cmul cr cone im]. ring.
    + apply sumR_ext. intros k Hk. rewrite dft_single by lia.
      replace (cr a * cis (- (2 * PI * INR (S k) * INR j0 / INR (2 * m + 1))) * cis (2 * PI * INR (S k) * INR i / INR ((2 * m + 1) * ups c)))%cx
        with (cr a * cis (- (2 * PI * INR (S k) * INR j0 / INR (2 * m + 1)) + 2 * PI * INR (S k) * INR i / INR ((2 * m + 1) * ups c)))%cx by (rewrite cis_add; ring).
      replace (- (2 * PI * INR (S k) * INR j0 / INR (2 * m + 1)) + 2 * PI * INR (S k) * INR i / INR ((2 * m + 1) * ups c))
        with (2 * PI * INR (S k) * (INR i - INR (ups c * j0)) / INR ((2 * m + 1) * ups c)) by (rewrite !(mult_INR _ (ups c)), mult_INR; field; split; assumption).
      cbn [re cmul cr cis im]. ring.
  - rewrite sumR_scale. unfold Rdiv. ring.
Qed.
Lemma folded_pos m k : (forall i, (i < 2 * m + 1)%nat -> 0 < kw c i) -> (k <= m)%nat -> 0 < folded c m k.
Proof.
  intros H Hk. unfold folded. destruct (Nat.eqb k 0) eqn:E; [apply H; lia|]. apply Nat.eqb_neq in E.
  pose proof (H k ltac:(lia)). pose proof (H (2 * m + 1 - k)%nat ltac:(lia)). lra.
Qed.
Lemma peak_single m a j0 : (0 < ups c)%nat -> (0 < m)%nat -> (j0 <= 2 * m)%nat -> 0 < a -> (forall i, (i < 2 * m + 1)%nat -> 0 < kw c i) ->
  exists b, peak (map (upsampled c m (single a j0)) (seq 0 ((2 * m + 1) * ups c))) = Ok (INR (ups c * j0), b).
Proof.
  intros Hp Hm Hj Ha Hk. set (N := ((2 * m + 1) * ups c)%nat). set (l := map _ _). set (i0 := (ups c * j0)%nat).
  assert (LL : length l = N) by (unfold l; rewrite map_length, seq_length; reflexivity).
  assert (I0 : (i0 < N)%nat) by (unfold i0, N; nia).
  assert (NTH : forall i, (i < N)%nat -> nth i l 0 = upsampled c m (single a j0) i) by (intros i Hi; unfold l; apply (nth_map_seq (upsampled c m (single a j0))); exact Hi).
  assert (NP : 0 < INR N) by (apply lt_0_INR; lia). assert (NX : 0 < INR (2 * m + 1)) by (apply lt_0_INR; lia).
  assert (AP : 0 < a / INR (2 * m + 1)) by (apply Rdiv_lt_0_compat; assumption).
  assert (MAX : argmax l = i0).
  { apply argmax_unique; [lia|]. rewrite LL. intros j Hj' N'. rewrite !NTH by lia. rewrite !upsampled_single by lia. fold i0 N.
    apply Rmult_lt_compat_l; [exact AP|]. apply Rplus_lt_compat_l.
    replace (INR i0 - INR i0) with 0 by ring.
    assert (TOP : forall k, cos (2 * PI * INR (S k) * 0 / INR N) = 1) by (intros k; replace (2 * PI * INR (S k) * 0 / INR N) with 0 by (field; lra); apply cos_0).
    apply (sumR_lt m _ _ 0%nat); [|exact Hm|].
    - intros k Hk'. rewrite TOP. pose proof (folded_pos m (S k) Hk ltac:(lia)). destruct (COS_bound (2 * PI * INR (S k) * (INR j - INR i0) / INR N)). nra.
    - rewrite TOP. pose proof (folded_pos m 1 Hk ltac:(lia)) as FP.
      assert (C : cos (2 * PI * INR 1 * (INR j - INR i0) / INR N) < 1); [|nra].
      assert (JN : INR j < INR N) by (apply lt_INR; lia). assert (IN : INR i0 < INR N) by (apply lt_INR; lia).
      assert (J0 : 0 <= INR j) by apply pos_INR. assert (I0' : 0 <= INR i0) by apply pos_INR. pose proof PI_RGT_0.
      assert (B : forall x, 0 < x < INR N -> 0 < 2 * PI * 1 * x / INR N < 2 * PI).
      { intros x Hx. split; [apply Rdiv_lt_0_compat; nra|]. apply Rmult_lt_reg_r with (INR N); [lra|]. unfold Rdiv. rewrite Rmult_assoc, Rinv_l by lra. nra. }
      replace (INR 1) with 1 by reflexivity.
      destruct (Nat.lt_ge_cases i0 j) as [Q|Q].
      + assert (INR i0 < INR j) by (apply lt_INR; exact Q). apply cos_lt_1. apply B. lra.
      + assert (INR j < INR i0) by (apply lt_INR; lia).
        replace (2 * PI * 1 * (INR j - INR i0) / INR N) with (- (2 * PI * 1 * (INR i0 - INR j) / INR N)) by (field; lra). rewrite cos_neg. apply cos_lt_1. apply B. lra. }
  unfold peak. cbv zeta. rewrite MAX. destruct (Nat.eqb i0 0 || Nat.eqb i0 (length l - 1)) eqn:E; [eexists; reflexivity|].
  apply orb_false_elim in E as [E1 E2]. apply Nat.eqb_neq in E1, E2.
  assert (SYM : nth (i0 + 1) l 0 = nth (i0 - 1) l 0).
  { rewrite !NTH by lia. rewrite !upsampled_single by lia. fold i0 N. f_equal. f_equal. apply sumR_ext. intros k _. f_equal.
    rewrite plus_INR, minus_INR by lia. replace (INR 1) with 1 by reflexivity.
    replace (2 * PI * INR (S k) * (INR i0 - 1 - INR i0) / INR N) with (- (2 * PI * INR (S k) * (INR i0 + 1 - INR i0) / INR N)) by (field; lra). rewrite cos_neg. reflexivity. }
  destruct (argmax_spec l ltac:(lia)) as (_ & _ & C). rewrite MAX in C. specialize (C (i0 - 1)%nat ltac:(lia)).
  destruct (Req_EM_T _ 0) as [Z|Z]; [exfalso; lra|]. exists true. rewrite SYM. do 2 f_equal. unfold Rdiv. rewrite Rminus_diag_eq by reflexivity. ring.
Qed.
Lemma sro_single a j0 : (0 < ups c)%nat -> (j0 <= 2 * lambda c)%nat -> 0 < a -> (forall i, (i < 2 * lambda c + 1)%nat -> 0 < kw c i) ->
  sro_of c (single a j0) = Ok ((INR j0 - INR (lambda c)) / INR (b_samples c) * 10 ^ 6).
Proof.
  intros Hp Hj Ha Hk. unfold sro_of. assert (Hm : (0 < lambda c)%nat) by (unfold lambda; lia).
  destruct (peak_single (lambda c) a j0 Hp Hm Hj Ha Hk) as (b & E). rewrite E. cbn [bind fst]. f_equal. rewrite mult_INR.
  assert (INR (ups c) <> 0) by (apply not_0_INR; lia). replace (- INR (lambda c) + INR (ups c) * INR j0 / INR (ups c)) with (INR j0 - INR (lambda c)) by (field; assumption). reflexivity.
Qed.
End Facts3.
