(** Further facts about the DXCP-PhaT estimator: the time offset. *)
From Verif Require Import Base BaseFacts Cx CxFacts ChunkSpec ChunkFacts WolaFacts Phat PhatFacts PhatFacts2 PhatFacts3.
From Coq Require Import Reals Lra.
Local Open Scope R_scope.

Lemma cis_2PI_Z z : cis (2 * PI * IZR z) = cone.
Proof.
  destruct (Z.le_gt_cases 0 z) as [H|H].
  - rewrite <- (Z2Nat.id z H), <- INR_IZR_INZ. apply cis_2PI_k.
  - replace (2 * PI * IZR z) with (- (2 * PI * IZR (- z))) by (rewrite opp_IZR; ring). rewrite <- conj_cis.
    rewrite <- (Z2Nat.id (- z)) by lia. rewrite <- INR_IZR_INZ, cis_2PI_k. apply cx_eq; cbn; ring.
Qed.
Lemma cabs_conj x : cabs (conj x) = cabs x.
Proof. unfold cabs. cbn [re im conj]. f_equal. ring. Qed.
Lemma cabs_re x : Rabs (re x) <= cabs x.
Proof. unfold cabs. rewrite <- sqrt_Rsqr_abs. unfold Rsqr. apply sqrt_le_1_alt. nra. Qed.
Lemma cabs_cis t x : cabs (cis t * x)%cx = cabs x.
Proof.
  unfold cabs. f_equal. cbn [re im cmul cis]. pose proof (sin2_cos2 t) as Q. unfold Rsqr in Q.
  transitivity ((sin t * sin t + cos t * cos t) * (re x * re x + im x * im x)); [ring|]. rewrite Q. ring.
Qed.
Lemma sumR_abs n f : Rabs (sumR n f) <= sumR n (fun i => Rabs (f i)).
Proof. induction n as [|n IH]; cbn [sumR]; [rewrite Rabs_R0; lra|]. eapply Rle_trans; [apply Rabs_triang|]. lra. Qed.
Lemma re_csum n f : re (csum n f) = sumR n (fun i => re (f i)).
Proof. induction n as [|n IH]; cbn [csum sumR re cadd]; [reflexivity|]. rewrite IH. reflexivity. Qed.
Lemma sumR_const n a : sumR n (fun _ => a) = INR n * a.
Proof. induction n as [|n IH]; cbn [sumR]; [cbn [INR]; ring|]. rewrite IH, S_INR. ring. Qed.

Section Facts4.
Variable c : config.
Hypothesis Hh : (3 <= half c)%nat.

Definition hermitian (X : nat -> cx) : Prop := forall k, (0 < k < size c)%nat -> X (size c - k)%nat = conj (X k).
Lemma masked_sym k : (0 < k < size c)%nat -> masked c (size c - k) = masked c k.
Proof.
  unfold masked, low_bin, upp_bin, size. intros Hk. set (h := half c) in *.
  pose proof (Nat.div_mod_eq (2 * h) 200). pose proof (Nat.mod_upper_bound (2 * h) 200 ltac:(lia)).
  pose proof (Nat.div_mod_eq (19 * (2 * h)) 40). pose proof (Nat.mod_upper_bound (19 * (2 * h)) 40 ltac:(lia)).
  set (lo := (2 * h / 200)%nat) in *. set (up := (19 * (2 * h) / 40)%nat) in *. lia.
Qed.
Lemma spectrum_herm x : hermitian (spectrum c x).
Proof. intros k Hk. unfold spectrum. apply dft_conj_sym; [intros; reflexivity|lia]. Qed.
Lemma phat_herm x1 x2 : hermitian (phat c x1 x2).
Proof.
  intros k Hk. unfold phat. cbv zeta. rewrite !spectrum_herm by exact Hk.
  set (X := spectrum c x1 k). set (Y := spectrum c x2 k).
  replace (conj X * conj (conj Y))%cx with (conj (X * conj Y)) by (rewrite conj_mul; reflexivity). rewrite cabs_conj.
  rewrite (conj_mul (X * conj Y) (cr _)), conj_cr. reflexivity.
Qed.
Lemma average_herm st al f g : hermitian f -> hermitian g -> hermitian (average st al f g).
Proof. intros Hf Hg k Hk. unfold average. rewrite Hf, Hg by exact Hk. destruct st; [|reflexivity]. rewrite conj_add, !conj_mul, !conj_cr. reflexivity. Qed.
Lemma run_herm tdoa bufs s : updates c tdoa (st0 c) bufs = Ok s -> hermitian (gcsd1 s).
Proof.
  revert s. induction bufs as [|b bufs IH] using rev_ind; intros s E.
  - injection E as <-. intros k _. apply cx_eq; cbn; ring.
  - apply updates_last in E as (s1 & E1 & E). destruct (update_inv c _ _ _ _ _ E) as (A & _). rewrite A. apply average_herm; [exact (IH _ E1)|apply phat_herm].
Qed.

(** ** Shifts by fractions of a sample *)
Lemma rev_conj t X n : hermitian X -> X 0%nat = czero ->
  csum (size c) (fun k => X k * cis (2 * PI / INR (size c) * t * INR k) * cis (2 * PI * INR k * INR n / INR (size c)))%cx =
  (conj (csum (size c) (fun k => X k * cis (2 * PI / INR (size c) * t * INR k) * cis (2 * PI * INR k * INR n / INR (size c)))%cx) * cis (2 * PI * t))%cx.
Proof.
  intros HX H0. assert (SP : (0 < size c)%nat) by (unfold size; lia). set (N := size c) in *. assert (N0 : INR N <> 0) by (apply not_0_INR; lia).
  set (T := fun k => (X k * cis (2 * PI / INR N * t * INR k) * cis (2 * PI * INR k * INR n / INR N))%cx). fold T.
  assert (T0 : T 0%nat = czero) by (unfold T; rewrite H0; ring).
  assert (TR : forall k, (0 < k < N)%nat -> T (N - k)%nat = (conj (T k) * cis (2 * PI * t))%cx).
  { intros k Hk. unfold T. assert (HXk : X (N - k)%nat = conj (X k)) by (apply HX; exact Hk). rewrite HXk, !conj_mul, !conj_cis.
    assert (E : (cis (2 * PI / INR N * t * INR (N - k)) * cis (2 * PI * INR (N - k) * INR n / INR N))%cx
                = (cis (- (2 * PI / INR N * t * INR k)) * cis (- (2 * PI * INR k * INR n / INR N)) * cis (2 * PI * t))%cx).
    { rewrite <- !cis_add. replace (2 * PI / INR N * t * INR (N - k) + 2 * PI * INR (N - k) * INR n / INR N)
        with ((- (2 * PI / INR N * t * INR k) + - (2 * PI * INR k * INR n / INR N) + 2 * PI * t) + 2 * PI * INR n) by (rewrite minus_INR by lia; field; exact N0).
      rewrite cis_add, cis_2PI_k. ring. }
    transitivity (conj (X k) * (cis (2 * PI / INR N * t * INR (N - k)) * cis (2 * PI * INR (N - k) * INR n / INR N)))%cx; [ring|]. rewrite E. ring. }
  clearbody T. destruct N as [|M]; [lia|]. rewrite csum_S_l, T0. replace (czero + csum M (fun i => T (S i)))%cx with (csum M (fun i => T (S i))) by ring.
  rewrite csum_conj, <- csum_scale_r. rewrite csum_rev. apply csum_ext. intros i Hi. replace (S (M - 1 - i)) with (S M - S i)%nat by lia. apply TR. lia.
Qed.
Definition lag_index (m j : nat) : nat := ((half c - m + j + half c) mod size c)%nat.
Lemma mask_herm X : hermitian X -> hermitian (mask c X).
Proof. intros H k Hk. unfold mask. rewrite masked_sym by exact Hk. rewrite H by exact Hk. destruct (masked c k); [apply cx_eq; cbn; ring|reflexivity]. Qed.
Lemma mask_unshift t X k : mask c (unshift c t X) k = (mask c X k * cis (2 * PI / INR (size c) * t * INR k))%cx.
Proof. unfold mask, unshift. destruct (masked c k); ring. Qed.
Lemma mask_0 X : (1 <= low_bin c)%nat -> mask c X 0 = czero.
Proof. intros H. unfold mask, masked. replace (Nat.ltb 0 (low_bin c)) with true by (symmetry; apply Nat.ltb_lt; lia). reflexivity. Qed.
Lemma attenuated t X m j : (1 <= low_bin c)%nat -> hermitian X ->
  correlation c m (mask c (unshift c t X)) j = cos (PI * t) * re (cis (- (PI * t)) * idft (size c) (mask c (unshift c t X)) (lag_index m j))%cx.
Proof.
  intros Hb HX. unfold correlation, idft. fold (lag_index m j). set (n := lag_index m j).
  rewrite (csum_ext _ _ (fun k => mask c X k * cis (2 * PI / INR (size c) * t * INR k) * cis (2 * PI * INR k * INR n / INR (size c)))%cx) by (intros k _; rewrite mask_unshift; reflexivity).
  pose proof (rev_conj t (mask c X) n (mask_herm X HX) (mask_0 X Hb)) as E. set (S := csum _ _) in *.
  assert (W : (cis (- (PI * t)) * S)%cx = conj (cis (- (PI * t)) * S)%cx).
  { rewrite conj_mul, conj_cis, Ropp_involutive. rewrite E at 1. replace (2 * PI * t) with (PI * t + PI * t) by ring. rewrite cis_add.
    transitivity (cis (- (PI * t)) * cis (PI * t) * (cis (PI * t) * conj S))%cx; [ring|]. rewrite <- cis_add. replace (- (PI * t) + PI * t) with 0 by ring. rewrite cis_0. ring. }
  assert (S' : S = (cis (PI * t) * (cis (- (PI * t)) * S))%cx). { transitivity (cis (PI * t + - (PI * t)) * S)%cx; [rewrite Rplus_opp_r, cis_0; ring|rewrite cis_add; ring]. }
  set (V := (cis (- (PI * t)) * S)%cx) in *. assert (I : im V = 0) by (pose proof (f_equal im W) as Q; cbn [im conj] in Q; lra).
  replace (cis (- (PI * t)) * (cr (/ INR (size c)) * S))%cx with (cr (/ INR (size c)) * V)%cx by (unfold V; ring).
  rewrite S'. cbn [re im cmul cr cis]. rewrite I. ring.
Qed.
Lemma attenuated_bound t X m j : (1 <= low_bin c)%nat -> hermitian X -> (forall k, (k < size c)%nat -> cabs (X k) <= 1) ->
  Rabs (correlation c m (mask c (unshift c t X)) j) <= Rabs (cos (PI * t)).
Proof.
  intros Hb HX H1. rewrite (attenuated t X m j Hb HX), Rabs_mult. rewrite <- (Rmult_1_r (Rabs (cos (PI * t)))) at 2. apply Rmult_le_compat_l; [apply Rabs_pos|].
  assert (NP : 0 < INR (size c)) by (apply lt_0_INR; unfold size; lia). unfold idft. set (n := lag_index m j).
  replace (cis (- (PI * t)) * (cr (/ INR (size c)) * csum (size c) (fun k => mask c (unshift c t X) k * cis (2 * PI * INR k * INR n / INR (size c)))))%cx
    with (cr (/ INR (size c)) * csum (size c) (fun k => cis (- (PI * t)) * (cis (2 * PI * INR k * INR n / INR (size c)) * mask c (unshift c t X) k)))%cx.
  2:{ rewrite csum_scale. rewrite (csum_ext _ (fun k => cis (2 * PI * INR k * INR n / INR (size c)) * mask c (unshift c t X) k)%cx (fun k => mask c (unshift c t X) k * cis (2 * PI * INR k * INR n / INR (size c)))%cx) by (intros; ring). ring. }
  cbn [re cmul cr]. rewrite Rmult_0_l, Rminus_0_r, re_csum, Rabs_mult, (Rabs_right (/ INR (size c))) by (left; apply Rinv_0_lt_compat; exact NP).
  apply Rmult_le_reg_l with (INR (size c)); [exact NP|]. rewrite <- Rmult_assoc, Rinv_r, Rmult_1_l, Rmult_1_r by lra.
  eapply Rle_trans; [apply sumR_abs|]. eapply Rle_trans; [apply (sumR_le _ _ (fun _ => 1))|rewrite sumR_const; lra].
  intros k Hk. eapply Rle_trans; [apply cabs_re|]. rewrite !cabs_cis. unfold mask, unshift. destruct (masked c k).
  - unfold cabs. cbn [re im czero cr]. replace (0 * 0 + 0 * 0) with 0 by ring. rewrite sqrt_0. lra.
  - replace (X k * cis (2 * PI / INR (size c) * t * INR k))%cx with (cis (2 * PI / INR (size c) * t * INR k) * X k)%cx by ring. rewrite cabs_cis. apply H1. exact Hk.
Qed.
Lemma cos_half z : cos (PI * (IZR z + 1 / 2)) = 0.
Proof.
  apply cos_eq_0_1. exists z. field.
Qed.
Lemma half_sample z X m j : (1 <= low_bin c)%nat -> hermitian X -> correlation c m (mask c (unshift c (IZR z + 1 / 2) X)) j = 0.
Proof. intros Hb HX. rewrite (attenuated _ X m j Hb HX), cos_half. ring. Qed.

(** whole samples *)
Lemma idft_period X n : idft (size c) X (n mod size c) = idft (size c) X n.
Proof.
  assert (SP : (0 < size c)%nat) by (unfold size; lia). unfold idft. f_equal. apply csum_ext. intros k _. f_equal. set (N := size c) in *.
  assert (N0 : INR N <> 0) by (apply not_0_INR; lia). pose proof (Nat.div_mod_eq n N) as E. symmetry. rewrite E at 1. rewrite plus_INR, mult_INR.
  replace (2 * PI * INR k * (INR N * INR (n / N) + INR (n mod N)) / INR N) with (2 * PI * INR (k * (n / N)) + 2 * PI * INR k * INR (n mod N) / INR N) by (rewrite mult_INR; field; exact N0).
  rewrite cis_add, cis_2PI_k. ring.
Qed.
Lemma idft_shift X t n n' : (Z.of_nat n + t)%Z = Z.of_nat n' -> idft (size c) (mask c (unshift c (IZR t) X)) n = idft (size c) (mask c X) n'.
Proof.
  intros H. assert (SP : (0 < size c)%nat) by (unfold size; lia). assert (N0 : INR (size c) <> 0) by (apply not_0_INR; lia).
  unfold idft. f_equal. apply csum_ext. intros k _. rewrite mask_unshift.
  assert (HR : INR n + IZR t = INR n') by (rewrite !INR_IZR_INZ, <- plus_IZR, H; reflexivity). rewrite <- HR.
  replace (2 * PI * INR k * (INR n + IZR t) / INR (size c)) with (2 * PI / INR (size c) * IZR t * INR k + 2 * PI * INR k * INR n / INR (size c)) by (field; exact N0).
  rewrite cis_add. ring.
Qed.
Lemma whole_samples X t m j j' : (m <= half c)%nat -> (j <= 2 * half c)%nat -> (Z.of_nat j + t = Z.of_nat j')%Z ->
  correlation c m (mask c (unshift c (IZR t) X)) j = correlation c m (mask c X) j'.
Proof.
  intros Hm Hj H. unfold correlation. rewrite !idft_period. f_equal. apply idft_shift. lia.
Qed.
End Facts4.
