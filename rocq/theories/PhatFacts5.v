(** Further facts about the DXCP-PhaT estimator: pure delays, scaling, recursive averages. *)
From Verif Require Import Base BaseFacts Cx CxFacts ChunkSpec ChunkFacts WolaFacts Phat PhatFacts PhatFacts2 PhatFacts3 PhatFacts4.
From Coq Require Import Reals Lra.
Local Open Scope R_scope.

(** ** Scaling *)
Lemma argmax_from_scale a l : 0 < a -> forall best v i, argmax_from best (a * v) i (map (Rmult a) l) = argmax_from best v i l.
Proof.
  intros Ha. induction l as [|x l IH]; intros best v i; cbn [argmax_from map]; [reflexivity|].
  destruct (Rlt_dec (a * v) (a * x)) as [P|P]; destruct (Rlt_dec v x) as [Q|Q]; try apply IH; exfalso; nra.
Qed.
Lemma nth_scale a l i : nth i (map (Rmult a) l) 0 = a * nth i l 0.
Proof. revert i; induction l as [|x l IH]; intros [|i]; cbn [map nth]; [ring|ring|reflexivity|apply IH]. Qed.
Lemma peak_scale a l : 0 < a -> peak (map (Rmult a) l) = peak l.
Proof.
  intros Ha. unfold peak. cbv zeta. assert (E : argmax (map (Rmult a) l) = argmax l) by (destruct l as [|x l]; [reflexivity|]; apply (argmax_from_scale a l Ha 0 x 1)).
  rewrite E, map_length. set (i := argmax l). destruct (Nat.eqb i 0 || Nat.eqb i (length l - 1)); [reflexivity|]. rewrite !nth_scale.
  destruct (Req_EM_T _ 0) as [P|P]; destruct (Req_EM_T _ 0) as [Q|Q]; try reflexivity.
  - exfalso. apply Q. nra.
  - exfalso. apply P. nra.
  - do 2 f_equal. f_equal. field. repeat split; try exact Q; try lra; intros Z; apply Q; nra.
Qed.

Section Facts5.
Variable c : config.
Lemma sto_of_scale tdoa a g : 0 < a -> sto_of c tdoa (fun j => a * g j) = sto_of c tdoa g.
Proof.
  intros Ha. unfold sto_of. rewrite (map_ext _ (fun j => a * Rabs (g j))). 2:{ intros j. rewrite Rabs_mult, (Rabs_right a) by lra. reflexivity. }
  rewrite <- (map_map (fun j => Rabs (g j)) (Rmult a)), peak_scale by exact Ha. reflexivity.
Qed.
Lemma upsampled_scale m a g i : upsampled c m (fun j => a * g j) i = a * upsampled c m g i.
Proof.
  unfold upsampled. cbv zeta. assert (D : forall k, dft (2 * m + 1) (fun j => cr (a * g j)) k = (cr a * dft (2 * m + 1) (fun j => cr (g j)) k)%cx).
  { intros k. unfold dft. rewrite <- csum_scale. apply csum_ext. intros j _. rewrite cr_mul. ring. }
  rewrite D. transitivity (/ INR (2 * m + 1) * (a * (folded c m 0 * re (dft (2 * m + 1) (fun j => cr (g j)) 0)) +
    a * sumR m (fun k => 2 * folded c m (S k) * re (dft (2 * m + 1) (fun j => cr (g j)) (S k) * cis (2 * PI * INR (S k) * INR i / INR ((2 * m + 1) * ups c)))%cx))); [|ring].
  f_equal. f_equal; [cbn [re im cmul cr]; ring|]. rewrite <- sumR_scale. apply sumR_ext. intros k _. rewrite D. cbn [re im cmul cr cis]. ring.
Qed.
Lemma sro_of_scale a g : 0 < a -> sro_of c (fun j => a * g j) = sro_of c g.
Proof.
  intros Ha. unfold sro_of. rewrite (map_ext _ (fun i => a * upsampled c (lambda c) g i)) by (intros i; apply upsampled_scale).
  rewrite <- (map_map (upsampled c (lambda c) g) (Rmult a)), peak_scale by exact Ha. reflexivity.
Qed.

(** ** Nothing is learnt from a frame compensated by half a sample *)
Hypothesis Hp : (0 < ups c)%nat.
Hypothesis Hl : (lambda c < half c)%nat.
Hypothesis Hh : (3 <= half c)%nat.
Lemma half_frame tdoa bufs b s s' z : (1 <= low_bin c)%nat -> 0 < alpha3 c -> (0 < ell_est c <= length bufs)%nat ->
  updates c tdoa (st0 c) bufs = Ok s -> updates c tdoa (st0 c) (bufs ++ [b]) = Ok s' ->
  sro s' / 10 ^ 6 * INR (shift c) * INR (length bufs) = IZR z + 1 / 2 -> sto s' = sto s.
Proof.
  intros Hb Ha L E E' Hz. destruct (ell_of c Hp Hl _ _ _ E) as (A1 & A2 & _). replace (Nat.ltb 0 (length bufs)) with true in A2 by (symmetry; apply Nat.ltb_lt; lia).
  pose proof (run_herm c Hh _ _ _ E') as HH. rewrite (updates_snoc c _ _ b _ E) in E'.
  assert (ST : sto_of c tdoa (gccf1 s) = Ok (sto s)).
  { destruct (exists_last (l := bufs)) as (bufs0 & b0 & ->). { intros ->. cbn [length] in L. lia. }
    apply updates_last in E as (s0 & E0 & E). destruct (ell_of c Hp Hl _ _ _ E0) as (B1 & _ & _). rewrite app_length in L. cbn [length] in L.
    destruct (update_inv c _ _ _ _ _ E) as (_ & _ & [Q|[Q|Q]]); [unfold ell_est in *; lia|lia|]. apply Q. }
  destruct (update_inv c _ _ _ _ _ E') as (_ & _ & [Q|[Q|Q]]); [unfold ell_est in *; lia|lia|]. destruct Q as (_ & _ & _ & QC & QD).
  assert (OFF : off_of c s (sro s') = IZR z + 1 / 2). { unfold off_of. rewrite A1, S_INR. rewrite <- Hz. f_equal. ring. }
  rewrite OFF in QC. rewrite (sto_of_ext c tdoa _ (fun j => alpha3 c * gccf1 s j)) in QD.
  2:{ intros j. rewrite QC. unfold cc_of. cbv zeta. rewrite A2, (half_sample c Hh) by assumption. ring. }
  rewrite sto_of_scale in QD by exact Ha. congruence.
Qed.

End Facts5.

(** ** Pure delays *)
Section Delays.
Variable c : config.
Hypothesis Hh : (3 <= half c)%nat.
Definition kernel (d : R) : R := sumR (size c) (fun k => (if masked c k then 0 else 1) * cos (2 * PI * INR k * d / INR (size c))).
Lemma kernel_even d : kernel (- d) = kernel d.
Proof. unfold kernel. apply sumR_ext. intros k _. f_equal. replace (2 * PI * INR k * - d / INR (size c)) with (- (2 * PI * INR k * d / INR (size c))) by (unfold Rdiv; ring). apply cos_neg. Qed.
Lemma size_pos : 0 < INR (size c).
Proof. apply lt_0_INR. unfold size. lia. Qed.
Lemma correlation_delay m j j0 : (m <= half c)%nat ->
  correlation c m (mask c (fun k => cis (- (2 * PI * INR k * (INR j0 - INR m) / INR (size c))))) j = / INR (size c) * kernel (INR j - INR j0).
Proof.
  intros Hm. pose proof size_pos as N0. unfold correlation. rewrite (idft_period c Hh). unfold idft. cbn [re cmul cr im]. rewrite Rmult_0_l, Rminus_0_r. f_equal.
  rewrite re_csum. unfold kernel. apply sumR_ext. intros k _. unfold mask. destruct (masked c k); [cbn [re cmul czero cr im]; ring|].
  rewrite <- cis_add. rewrite !plus_INR, minus_INR by exact Hm.
  replace (- (2 * PI * INR k * (INR j0 - INR m) / INR (size c)) + 2 * PI * INR k * (INR (half c) - INR m + INR j + INR (half c)) / INR (size c))
    with (2 * PI * INR k * (INR j - INR j0) / INR (size c) + 2 * PI * INR k).
  2:{ unfold size. rewrite mult_INR. replace (INR 2) with 2 by reflexivity. assert (INR (half c) <> 0) by (apply not_0_INR; lia). field. assumption. }
  rewrite cis_add, cis_2PI_k. cbn [re cmul cis cone cr im]. ring.
Qed.
Lemma cos_ge x : -1 <= cos x <= 1. Proof. apply COS_bound. Qed.
Lemma two_bins : (size c >= 8)%nat -> masked c (low_bin c) = false /\ masked c (low_bin c + 1) = false /\ (low_bin c + 1 < size c)%nat.
Proof.
  unfold masked, low_bin, upp_bin, size. intros Hk. set (h := half c) in *.
  pose proof (Nat.div_mod_eq (2 * h) 200). pose proof (Nat.mod_upper_bound (2 * h) 200 ltac:(lia)).
  pose proof (Nat.div_mod_eq (19 * (2 * h)) 40). pose proof (Nat.mod_upper_bound (19 * (2 * h)) 40 ltac:(lia)).
  set (lo := (2 * h / 200)%nat) in *. set (up := (19 * (2 * h) / 40)%nat) in *. lia.
Qed.
Lemma unit_cos x e : (e = 1 \/ e = -1) -> cos x = e -> sin x = 0.
Proof. intros He H. pose proof (sin2_cos2 x) as Q. unfold Rsqr in Q. destruct He as [-> | ->]; rewrite H in Q; nra. Qed.
Lemma kernel_lt d e : (size c >= 8)%nat -> 0 < Rabs d < INR (size c) -> (e = 1 \/ e = -1) -> e * kernel d < kernel 0.
Proof.
  intros H8 Hd He. pose proof size_pos as N0. destruct (two_bins H8) as (M1 & M2 & M3). set (th := 2 * PI * d / INR (size c)).
  assert (TH : cos th < 1).
  { pose proof PI_RGT_0. assert (B : forall x, 0 < x < INR (size c) -> 0 < 2 * PI * x / INR (size c) < 2 * PI).
    { intros x Hx. split; [apply Rdiv_lt_0_compat; nra|]. apply Rmult_lt_reg_r with (INR (size c)); [lra|]. unfold Rdiv. rewrite Rmult_assoc, Rinv_l by lra. nra. }
    unfold th. destruct (Rle_lt_dec 0 d) as [D|D].
    - rewrite Rabs_right in Hd by lra. apply cos_lt_1, B. exact Hd.
    - rewrite Rabs_left in Hd by lra. replace (2 * PI * d / INR (size c)) with (- (2 * PI * - d / INR (size c))) by (field; lra). rewrite cos_neg. apply cos_lt_1, B. exact Hd. }
  assert (AR : forall k, 2 * PI * INR k * d / INR (size c) = INR k * th) by (intros k; unfold th; field; lra).
  assert (STRICT : exists k, (k < size c)%nat /\ masked c k = false /\ e * cos (INR k * th) < 1).
  { destruct (Rlt_dec (e * cos (INR (low_bin c) * th)) 1) as [Q|Q]; [exists (low_bin c); split; [lia|]; split; [exact M1|exact Q]|].
    exists (low_bin c + 1)%nat. split; [exact M3|]. split; [exact M2|].
    destruct (Rlt_dec (e * cos (INR (low_bin c + 1) * th)) 1) as [Q'|Q']; [exact Q'|]. exfalso.
    set (u := INR (low_bin c) * th) in *. set (v := INR (low_bin c + 1) * th) in *.
    assert (C1 : cos u = e) by (destruct (cos_ge u); destruct He as [-> | ->]; lra). assert (C2 : cos v = e) by (destruct (cos_ge v); destruct He as [-> | ->]; lra).
    pose proof (unit_cos u e He C1) as S1. pose proof (unit_cos v e He C2) as S2.
    assert (V : th = v - u) by (unfold u, v; rewrite plus_INR; cbn [INR]; ring). rewrite V, cos_minus, C1, C2, S1, S2 in TH. destruct He as [-> | ->]; lra. }
  destruct STRICT as (k0 & K1 & K2 & K3). unfold kernel. rewrite <- sumR_scale.
  apply (sumR_lt _ _ _ k0); [|exact K1|].
  - intros k Hk. replace (2 * PI * INR k * 0 / INR (size c)) with 0 by (field; lra). rewrite cos_0. set (q := cos _). assert (-1 <= q <= 1) by apply cos_ge. destruct (masked c k); destruct He as [-> | ->]; lra.
  - rewrite AR, K2. replace (2 * PI * INR k0 * 0 / INR (size c)) with 0 by (field; lra). rewrite cos_0. lra.
Qed.
Lemma sto_delay tdoa a j0 : (size c >= 8)%nat -> (0 < j0 < 2 * upsilon c)%nat -> a <> 0 ->
  sto_of c tdoa (fun j => a * correlation c (upsilon c) (mask c (fun k => cis (- (2 * PI * INR k * (INR j0 - INR (upsilon c)) / INR (size c))))) j)
  = Ok (INR j0 - INR (upsilon c) + tdoa * INR (fs c)).
Proof.
  intros H8 Hj Ha. pose proof size_pos as N0. assert (NI : 0 < / INR (size c)) by (apply Rinv_0_lt_compat; exact N0).
  unfold sto_of. rewrite (map_ext _ (fun j => Rabs a * / INR (size c) * Rabs (kernel (INR j - INR j0)))).
  2:{ intros j. rewrite correlation_delay by (unfold upsilon; lia). rewrite !Rabs_mult, (Rabs_right (/ INR (size c))) by lra. ring. }
  set (f := fun j => Rabs a * / INR (size c) * Rabs (kernel (INR j - INR j0))). set (l := map f _).
  assert (AP : 0 < Rabs a * / INR (size c)) by (apply Rmult_lt_0_compat; [apply Rabs_pos_lt; exact Ha|exact NI]).
  assert (LL : length l = (2 * upsilon c + 1)%nat) by (unfold l; rewrite map_length, seq_length; reflexivity).
  assert (NTH : forall i, (i < 2 * upsilon c + 1)%nat -> nth i l 0 = f i) by (intros i Hi; unfold l; apply (nth_map_seq f); exact Hi).
  assert (MAX : argmax l = j0).
  { apply argmax_unique; [lia|]. rewrite LL. intros j Hj' N'. rewrite !NTH by lia. unfold f. apply Rmult_lt_compat_l; [exact AP|].
    replace (INR j0 - INR j0) with 0 by ring. set (d := INR j - INR j0).
    assert (DB : 0 < Rabs d < INR (size c)).
    { assert (INR j < INR (size c)) by (apply lt_INR; unfold size, upsilon in *; lia). assert (INR j0 < INR (size c)) by (apply lt_INR; unfold size, upsilon in *; lia).
      pose proof (pos_INR j). pose proof (pos_INR j0). split.
      - apply Rabs_pos_lt. unfold d. intros Z. apply N'. apply INR_eq. lra.
      - unfold d. apply Rabs_def1; lra. }
    pose proof (kernel_lt d 1 H8 DB (or_introl eq_refl)). pose proof (kernel_lt d (-1) H8 DB (or_intror eq_refl)).
    apply Rlt_le_trans with (kernel 0); [apply Rabs_def1; lra|apply Rle_abs]. }
  unfold peak. cbv zeta. rewrite MAX, LL. replace (Nat.eqb j0 0) with false by (symmetry; apply Nat.eqb_neq; lia).
  replace (Nat.eqb j0 (2 * upsilon c + 1 - 1)) with false by (symmetry; apply Nat.eqb_neq; lia). cbn [orb].
  assert (SYM : nth (j0 + 1) l 0 = nth (j0 - 1) l 0).
  { rewrite !NTH by lia. unfold f. rewrite plus_INR, minus_INR by lia. replace (INR 1) with 1 by reflexivity.
    replace (INR j0 - 1 - INR j0) with (- (INR j0 + 1 - INR j0)) by ring. rewrite kernel_even. reflexivity. }
  destruct (argmax_spec l ltac:(lia)) as (_ & _ & C). rewrite MAX in C. specialize (C (j0 - 1)%nat ltac:(lia)).
  destruct (Req_EM_T _ 0) as [Z|Z]; [exfalso; lra|]. cbn [bind fst snd]. f_equal. rewrite SYM. unfold Rdiv. rewrite (Rminus_diag_eq (nth (j0 - 1) l 0)) by reflexivity. ring.
Qed.
End Delays.
