(** Proofs about the online resampler: fractional shifts. *)
From Verif Require Import Base BaseFacts ChunkSpec Cx CxFacts Resamp ResampSpec ResampFacts CohFacts2.
From Coq Require Import Reals Lra Psatz.
Local Open Scope R_scope.

Lemma nearest_round x r : nearest x r -> np_round x = r.
Proof.
  intros [H1 H2]. unfold np_round. pose proof (base_Int_part x) as [A1 A2]. set (f := Int_part x) in *.
  assert (H3 : - (1 / 2) <= x - IZR r <= 1 / 2) by (revert H1; unfold Rabs; destruct (Rcase_abs _); lra).
  assert (Hr : (f <= r <= f + 1)%Z).
  { split.
    - apply Z.lt_succ_r. apply lt_IZR. rewrite succ_IZR. lra.
    - apply Z.lt_succ_r. apply lt_IZR. rewrite succ_IZR, plus_IZR. lra. }
  assert (C : r = f \/ r = (f + 1)%Z) by lia. destruct C as [->| ->].
  - destruct (Rlt_dec _ _); [reflexivity|]. destruct (Rlt_dec _ _); [lra|]. rewrite H2; [reflexivity|]. rewrite Rabs_right; lra.
  - rewrite plus_IZR in *. destruct (Rlt_dec _ _); [lra|]. destruct (Rlt_dec _ _); [reflexivity|]. destruct (Z.even f) eqn:Ev; [|reflexivity]. exfalso.
    rewrite Z.even_add, Ev in H2. cbn in H2. discriminate H2. rewrite Rabs_left; lra.
Qed.
Lemma fade_hann B j : (0 < B)%nat -> fade B j = hann_per B j.
Proof.
  intros HB. unfold fade, hann_per. assert (0 < INR (2 * B)) by (apply lt_0_INR; lia). replace (2 * PI * INR j / INR (2 * B)) with (2 * (PI * INR j / INR (2 * B))) by (field; lra).
  rewrite cos_2a_sin. lra.
Qed.

Lemma re_csum n f : re (csum n f) = sumR n (fun i => re (f i)).
Proof. induction n as [|n IH]; [reflexivity|]. cbn [csum sumR cadd re]. rewrite IH. reflexivity. Qed.
Lemma sumR_ext2 n f g : (forall i, (i < n)%nat -> f i = g i) -> sumR n f = sumR n g.
Proof. induction n as [|n IH]; intros H; [reflexivity|]. cbn [sumR]. rewrite IH, H by (intros; try apply H; lia). reflexivity. Qed.
Lemma sumR_app2 n m f : sumR (n + m) f = sumR n f + sumR m (fun i => f (n + i)%nat).
Proof. induction m as [|m IH]; [rewrite Nat.add_0_r; cbn; ring|]. rewrite Nat.add_succ_r. cbn [sumR]. rewrite IH. ring. Qed.
Lemma sumR_zero2 n f : (forall i, (i < n)%nat -> f i = 0) -> sumR n f = 0.
Proof. induction n as [|n IH]; intros H; [reflexivity|]. cbn [sumR]. rewrite IH, H by (intros; try apply H; lia). ring. Qed.

Lemma sumR_half B f : sumR (4 * B) f = sumR (2 * B) f + sumR (2 * B) (fun i => f (2 * B + i)%nat).
Proof. rewrite <- sumR_app2. f_equal. lia. Qed.

Lemma freq_sum B g : sumR (4 * B) (fun k => g (IZR (kfreq (4 * B) k))) = sumR (4 * B) (fun k => g (INR k - INR (4 * B) / 2)).
Proof.
  rewrite !sumR_half, Rplus_comm.
  assert (D : (4 * B / 2 = 2 * B)%nat) by (replace (4 * B)%nat with (2 * B * 2)%nat by lia; apply Nat.div_mul; lia).
  assert (E : INR (4 * B) / 2 = INR (2 * B)) by (rewrite !mult_INR; change (INR 4) with (2 + 1 + 1); change (INR 2) with 2; lra).
  f_equal; apply sumR_ext2; intros i Hi; unfold kfreq; rewrite D, E; f_equal.
  - destruct (Nat.ltb_spec (2 * B + i) (2 * B)); [lia|]. rewrite minus_IZR, <- !INR_IZR_INZ, plus_INR. rewrite <- E. lra.
  - destruct (Nat.ltb_spec i (2 * B)); [|lia]. rewrite <- INR_IZR_INZ, plus_INR. lra.
Qed.
Lemma phase_term B k n j rest : (0 < B)%nat ->
  let N := (4 * B)%nat in
  ((cis (- (2 * PI * INR k * INR j / INR N)) * cis (- (2 * PI * IZR (kfreq N k) / INR N * rest))) * cis (2 * PI * INR k * INR n / INR N))%cx
  = cis (2 * PI * IZR (kfreq N k) * (INR n - INR j - rest) / INR N).
Proof.
  intros HB N. assert (HN : INR N <> 0) by (apply not_0_INR; unfold N; lia). rewrite <- !cis_add.
  assert (E : exists e : Z, INR k = IZR (kfreq N k) + INR N * IZR e).
  { unfold kfreq. destruct (Nat.ltb_spec k (N / 2)); [exists 0%Z; rewrite <- INR_IZR_INZ; ring | exists 1%Z; rewrite minus_IZR, <- !INR_IZR_INZ; ring]. }
  destruct E as [e E]. rewrite E. set (q := IZR (kfreq N k)).
  replace (- (2 * PI * (q + INR N * IZR e) * INR j / INR N) + - (2 * PI * q / INR N * rest) + 2 * PI * (q + INR N * IZR e) * INR n / INR N)
    with (2 * PI * q * (INR n - INR j - rest) / INR N + 2 * PI * IZR (e * (Z.of_nat n - Z.of_nat j))).
  2: { rewrite mult_IZR, minus_IZR, <- !INR_IZR_INZ. field. exact HN. }
  rewrite cis_add, cis_2PI_Z. apply cx_eq; cbn; ring.
Qed.

Lemma shifted_kernel B sel rest n : (0 < B)%nat -> (n < 2 * B)%nat ->
  nth n (shifted B sel rest) 0 = sumR (2 * B) (fun j => hann_per B j * nth j sel 0 * interp_kernel (4 * B) (INR n - INR j - rest)).
Proof.
  intros HB Hn. unfold shifted. cbv zeta. set (N := (4 * B)%nat).
  set (f := fun n0 => re _). rewrite (nth_indep _ 0 (f 0%nat)) by (rewrite map_length, seq_length; exact Hn). rewrite (map_nth f), seq_nth by exact Hn. cbn [Nat.add]. unfold f. clear f.
  set (x := fun m => if Nat.ltb m (2 * B) then hann_per B m * nth m sel 0 else 0).
  unfold idft, dft.
  rewrite (csum_ext N _ (fun k => csum N (fun j => (cr (x j) * cis (2 * PI * IZR (kfreq N k) * (INR n - INR j - rest) / INR N))%cx))).
  2: { intros k _. rewrite <- !csum_scale_r. apply csum_ext. intros j _. pose proof (phase_term B k n j rest HB) as P. cbv zeta in P. fold N in P. rewrite <- P. clear P. unfold x. set (c1 := cis (- (2 * PI * INR k * INR j / INR N))). set (c2 := cis _). set (c3 := cis (2 * PI * INR k * _ / _)). apply cx_eq; cbn; ring. }
  rewrite csum_swap. cbn [cmul cr re im]. rewrite Rmult_0_l, Rminus_0_r, re_csum.
  rewrite (sumR_half B).
  rewrite (sumR_zero2 (2 * B) (fun i => re (csum N (fun i0 => (cr (x (2 * B + i)%nat) * _)%cx)))).
  2: { intros i Hi. rewrite csum_scale. unfold x. destruct (Nat.ltb_spec (2 * B + i) (2 * B)); [lia|]. cbn. ring. }
  rewrite Rplus_0_r. set (h := fun j => _ : R). set (g := fun j => hann_per B j * _ * _).
  assert (G : forall m, (m <= 2 * B)%nat -> / INR N * sumR m h = sumR m g).
  { induction m as [|m IH]; intros Hm; [cbn; ring|]. cbn [sumR]. rewrite Rmult_plus_distr_l, IH by lia. f_equal. unfold h, g. rewrite csum_scale. cbn [cmul cr re im]. rewrite Rmult_0_l, Rminus_0_r, re_csum.
    unfold x. destruct (Nat.ltb_spec m (2 * B)); [|lia]. unfold interp_kernel. cbn [cis re].
    pose proof (freq_sum B (fun q => cos (2 * PI * q * (INR n - INR m - rest) / INR N))) as F. fold N in F. cbv beta in F. rewrite F. unfold Rdiv. ring. }
  apply G. lia.
Qed.
