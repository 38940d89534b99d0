(** Algebra of Cx.v and inversion of the discrete Fourier transform. *)
From Verif Require Import Base Cx.
From Coq Require Import Reals Lra.
Open Scope R_scope.

Lemma cx_eq a b : re a = re b -> im a = im b -> a = b.
Proof. destruct a, b; simpl; intros -> ->; reflexivity. Qed.

Ltac cxe := apply cx_eq; simpl; ring.

Lemma cx_ring : ring_theory czero cone cadd cmul csub copp eq.
Proof. constructor; intros; try reflexivity; cxe. Qed.
Add Ring cx_ring_inst : cx_ring.
Open Scope cx_scope.

Lemma conj_conj a : conj (conj a) = a. Proof. cxe. Qed.
Lemma conj_add a b : conj (a + b) = conj a + conj b. Proof. cxe. Qed.
Lemma conj_mul a b : conj (a * b) = conj a * conj b. Proof. cxe. Qed.
Lemma conj_cr x : conj (cr x) = cr x. Proof. cxe. Qed.
Lemma conj_cis x : conj (cis x) = cis (- x).
Proof. apply cx_eq; simpl; [rewrite cos_neg | rewrite sin_neg]; reflexivity. Qed.
Lemma cis_add x y : cis (x + y) = cis x * cis y.
Proof. apply cx_eq; simpl; [rewrite cos_plus | rewrite sin_plus]; ring. Qed.
Lemma cis_0 : cis 0 = cone.
Proof. apply cx_eq; simpl; [apply cos_0 | apply sin_0]. Qed.
Lemma cis_2PI_k k : cis (2 * PI * INR k) = cone.
Proof.
  induction k as [|k IH]; [rewrite <- cis_0; f_equal; simpl; ring|].
  rewrite S_INR. replace (2 * PI * (INR k + 1))%R with (2 * PI * INR k + 2 * PI)%R by ring.
  rewrite cis_add, IH. apply cx_eq; simpl; [rewrite cos_2PI, sin_2PI | rewrite cos_2PI, sin_2PI]; ring.
Qed.

Lemma cr_add x y : cr (x + y) = cr x + cr y. Proof. cxe. Qed.
Lemma cr_mul x y : cr (x * y) = cr x * cr y. Proof. cxe. Qed.

Lemma csum_ext n f g : (forall i, (i < n)%nat -> f i = g i) -> csum n f = csum n g.
Proof. induction n; intros H; simpl; [reflexivity|]. rewrite IHn, H by (intros; auto with arith). reflexivity. Qed.
Lemma csum_add n f g : csum n (fun i => f i + g i) = csum n f + csum n g.
Proof. induction n; simpl; [cxe|]. rewrite IHn. ring. Qed.
Lemma csum_scale n a f : csum n (fun i => a * f i) = a * csum n f.
Proof. induction n; simpl; [ring|]. rewrite IHn. ring. Qed.
Lemma csum_scale_r n a f : csum n (fun i => f i * a) = csum n f * a.
Proof. induction n; simpl; [ring|]. rewrite IHn. ring. Qed.
Lemma csum_0 n : csum n (fun _ => czero) = czero.
Proof. induction n; simpl; [reflexivity|]. rewrite IHn. ring. Qed.
Lemma csum_swap n m f : csum n (fun i => csum m (fun j => f i j)) = csum m (fun j => csum n (fun i => f i j)).
Proof.
  induction n; simpl; [symmetry; apply csum_0|]. rewrite IHn, <- csum_add. reflexivity.
Qed.
Lemma csum_conj n f : conj (csum n f) = csum n (fun i => conj (f i)).
Proof. induction n; simpl; [cxe|]. rewrite conj_add, IHn. reflexivity. Qed.
Lemma csum_const n a : csum n (fun _ => a) = cr (INR n) * a.
Proof.
  induction n as [|n IH]; [simpl; cxe|]. cbn [csum]. rewrite IH, S_INR, cr_add. change (cr 1) with cone. ring.
Qed.
Lemma csum_single n f j : (j < n)%nat -> (forall i, (i < n)%nat -> i <> j -> f i = czero) -> csum n f = f j.
Proof.
  induction n as [|n IH]; intros Hj H; [lia|]. simpl. destruct (Nat.eq_dec j n) as [->|Hn].
  - replace (csum n f) with czero; [ring|]. symmetry. rewrite <- (csum_0 n). apply csum_ext. intros i Hi. apply H; lia.
  - rewrite IH; [|lia|intros; apply H; lia]. rewrite (H n) by lia. ring.
Qed.
Lemma csum_S_l n f : csum (S n) f = f 0%nat + csum n (fun i => f (S i)).
Proof. induction n; simpl in *; [ring|]. rewrite IHn. ring. Qed.
Lemma csum_app n m f : csum (n + m) f = csum n f + csum m (fun i => f (n + i)%nat).
Proof.
  induction m as [|m IH]; [rewrite Nat.add_0_r; simpl; ring|]. rewrite Nat.add_succ_r. simpl. rewrite IH. ring.
Qed.
Lemma csum_rev n f : csum n f = csum n (fun i => f (n - 1 - i)%nat).
Proof.
  induction n as [|n IH]; [reflexivity|]. rewrite (csum_S_l n (fun i => f (S n - 1 - i)%nat)).
  change (csum (S n) f) with (csum n f + f n). rewrite IH.
  assert (E : csum n (fun i => f (n - 1 - i)%nat) = csum n (fun i => f (S n - 1 - S i)%nat)) by (apply csum_ext; intros; f_equal; lia).
  rewrite E. replace (S n - 1 - 0)%nat with n by lia. ring.
Qed.

(** powers of a root of unity *)
Fixpoint cpow (a : cx) (n : nat) : cx := match n with O => cone | S n' => a * cpow a n' end.
Lemma cpow_cis x n : cpow (cis x) n = cis (INR n * x).
Proof.
  induction n as [|n IH]; [simpl; rewrite Rmult_0_l, cis_0; reflexivity|].
  cbn [cpow]. rewrite IH, <- cis_add, S_INR. f_equal. ring.
Qed.
Lemma geometric a n : (a - cone) * csum n (cpow a) = cpow a n - cone.
Proof. induction n as [|n IH]; cbn [csum cpow]; [ring|]. replace ((a - cone) * (csum n (cpow a) + cpow a n)) with ((a - cone) * csum n (cpow a) + (a - cone) * cpow a n) by ring. rewrite IH. ring. Qed.

Lemma cx_integral a b : a * b = czero -> a = czero \/ b = czero.
Proof.
  intros H. injection H as H1 H2.
  assert (N : ((re a * re a + im a * im a) * (re b * re b + im b * im b) = 0)%R).
  { replace ((re a * re a + im a * im a) * (re b * re b + im b * im b))%R
      with ((re a * re b - im a * im b) * (re a * re b - im a * im b) + (re a * im b + im a * re b) * (re a * im b + im a * re b))%R by ring.
    rewrite H1, H2. ring. }
  apply Rmult_integral in N. destruct N as [N|N]; [left | right].
  - assert (re a = 0 /\ im a = 0)%R by nra. apply cx_eq; simpl; tauto.
  - assert (re b = 0 /\ im b = 0)%R by nra. apply cx_eq; simpl; tauto.
Qed.

Lemma cis_ne_1 x : (0 < x < 2 * PI)%R -> cis x <> cone.
Proof.
  intros [H1 H2] E. injection E as Ec Es.
  replace x with (2 * (x / 2))%R in Ec by field. rewrite cos_2a_sin in Ec.
  assert (Hs : (0 < sin (x / 2))%R) by (apply sin_gt_0; lra). nra.
Qed.

(** sum of the powers of a non-trivial root of unity *)
Lemma root_sum n d : (0 < d < n)%nat -> csum n (fun k => cis (2 * PI * INR k * INR d / INR n)) = czero.
Proof.
  intros [Hd Hn]. assert (HN : (0 < INR n)%R) by (apply lt_0_INR; lia).
  set (w := cis (2 * PI * INR d / INR n)).
  assert (E : csum n (fun k => cis (2 * PI * INR k * INR d / INR n)) = csum n (cpow w)).
  { apply csum_ext. intros k _. unfold w. rewrite cpow_cis. f_equal. field. lra. }
  rewrite E. assert (G := geometric w n). assert (W : cpow w n = cone).
  { unfold w. rewrite cpow_cis. replace (INR n * (2 * PI * INR d / INR n))%R with (2 * PI * INR d)%R by (field; lra). apply cis_2PI_k. }
  rewrite W in G. replace (cone - cone) with czero in G by ring. apply cx_integral in G. destruct G as [G|G]; [|exact G].
  exfalso. apply (cis_ne_1 (2 * PI * INR d / INR n)).
  - assert (0 < INR d < INR n)%R by (split; [apply lt_0_INR | apply lt_INR]; lia). assert (HP := PI_RGT_0).
    split; [apply Rdiv_lt_0_compat; nra|]. apply (Rmult_lt_reg_r (INR n)); [lra|]. unfold Rdiv. rewrite Rmult_assoc, Rinv_l by lra. nra.
  - fold w. replace w with (w - cone + cone) by ring. rewrite G. ring.
Qed.

Lemma root_sum' n a b : (a < n)%nat -> (b < n)%nat ->
  csum n (fun k => cis (2 * PI * INR k * INR a / INR n) * cis (- (2 * PI * INR k * INR b / INR n))) = if Nat.eqb a b then cr (INR n) else czero.
Proof.
  intros Ha Hb. assert (HN : (0 < INR n)%R) by (apply lt_0_INR; lia).
  destruct (Nat.eqb_spec a b) as [->|Hne].
  - rewrite (csum_ext n _ (fun _ => cone)). + rewrite csum_const. ring.
    + intros i _. rewrite <- cis_add, Rplus_opp_r. apply cis_0.
  - destruct (Nat.lt_total a b) as [L|[L|L]]; [|congruence|].
    + rewrite <- (conj_conj (csum n _)), csum_conj, (csum_ext n _ (fun k => cis (2 * PI * INR k * INR (b - a) / INR n))).
      * rewrite root_sum by lia. cxe.
      * intros i _. rewrite <- cis_add, conj_cis. f_equal. rewrite minus_INR by lia. field. lra.
    + rewrite (csum_ext n _ (fun k => cis (2 * PI * INR k * INR (a - b) / INR n))); [apply root_sum; lia|].
      intros i _. rewrite <- cis_add. f_equal. rewrite minus_INR by lia. field. lra.
Qed.

Lemma idft_ext n X Y m : (forall k, (k < n)%nat -> X k = Y k) -> idft n X m = idft n Y m.
Proof. intros H. unfold idft. f_equal. apply csum_ext. intros k Hk. rewrite H by exact Hk. reflexivity. Qed.
Lemma dft_ext n X Y m : (forall k, (k < n)%nat -> X k = Y k) -> dft n X m = dft n Y m.
Proof. intros H. unfold dft. apply csum_ext. intros k Hk. rewrite H by exact Hk. reflexivity. Qed.

Theorem idft_dft n x m : (m < n)%nat -> idft n (dft n x) m = x m.
Proof.
  intros Hm. assert (HN : (0 < INR n)%R) by (apply lt_0_INR; lia). unfold idft, dft.
  rewrite (csum_ext n _ (fun k => csum n (fun j => x j * (cis (2 * PI * INR k * INR m / INR n) * cis (- (2 * PI * INR k * INR j / INR n)))))).
  2:{ intros k _. rewrite <- csum_scale_r. apply csum_ext. intros j _. ring. }
  rewrite csum_swap.
  rewrite (csum_ext n _ (fun j => x j * (if Nat.eqb m j then cr (INR n) else czero))).
  2:{ intros j Hj. rewrite csum_scale. f_equal. apply root_sum'; assumption. }
  rewrite (csum_single n _ m Hm).
  - rewrite Nat.eqb_refl. replace (cr (/ INR n) * (x m * cr (INR n))) with (x m * (cr (/ INR n) * cr (INR n))) by ring.
    rewrite <- cr_mul, Rinv_l by lra. change (cr 1) with cone. ring.
  - intros i Hi Hne. destruct (Nat.eqb_spec m i); [congruence | ring].
Qed.

(** spectrum of a real signal *)
Lemma dft_conj_sym n x k : (forall m, (m < n)%nat -> im (x m) = 0%R) -> (0 < k <= n)%nat ->
  dft n x (n - k) = conj (dft n x k).
Proof.
  intros Hx Hk. assert (HN : (0 < INR n)%R) by (apply lt_0_INR; lia). unfold dft. rewrite csum_conj. apply csum_ext. intros m Hm.
  rewrite conj_mul, conj_cis. f_equal.
  - apply cx_eq; simpl; [reflexivity|]. rewrite (Hx m Hm). ring.
  - rewrite minus_INR by lia.
    replace (- (2 * PI * (INR n - INR k) * INR m / INR n))%R with (- - (2 * PI * INR k * INR m / INR n) + - (2 * PI * INR m))%R by (field; lra).
    rewrite cis_add, <- (conj_cis (2 * PI * INR m)), cis_2PI_k. apply cx_eq; simpl; ring.
Qed.

Lemma im_csum n f : (forall i, (i < n)%nat -> im (f i) = 0%R) -> im (csum n f) = 0%R.
Proof. induction n; intros H; simpl; [reflexivity|]. rewrite IHn, H by (intros; auto with arith). ring. Qed.

(** inverse transform of a Hermitian spectrum *)
Lemma idft_real n X m :
  (0 < n)%nat -> im (X 0%nat) = 0%R -> (forall k, (0 < k < n)%nat -> X (n - k)%nat = conj (X k)) -> im (idft n X m) = 0%R.
Proof.
  intros Hn H0 HX. assert (HN : (0 < INR n)%R) by (apply lt_0_INR; lia).
  unfold idft. assert (G : im (csum n (fun k => X k * cis (2 * PI * INR k * INR m / INR n))) = 0%R).
  2:{ simpl. rewrite G. ring. }
  destruct n as [|n]; [lia|]. rewrite csum_S_l. cbn [cadd im].
  assert (E0 : im (X 0%nat * cis (2 * PI * INR 0 * INR m / INR (S n))) = 0%R).
  { replace (2 * PI * INR 0 * INR m / INR (S n))%R with 0%R by (simpl (INR 0); field; lra). rewrite cis_0. simpl. rewrite H0. ring. }
  rewrite E0, Rplus_0_l.
  set (g := fun i => X (S i) * cis (2 * PI * INR (S i) * INR m / INR (S n))).
  assert (S1 : conj (csum n g) = csum n g).
  { rewrite csum_conj. rewrite (csum_rev n g). apply csum_ext. intros i Hi. unfold g. rewrite conj_mul, conj_cis.
    replace (S (n - 1 - i)) with (S n - S i)%nat by lia. rewrite (HX (S i)) by lia. f_equal.
    rewrite minus_INR by lia.
    replace (2 * PI * (INR (S n) - INR (S i)) * INR m / INR (S n))%R with (- (2 * PI * INR (S i) * INR m / INR (S n)) + 2 * PI * INR m)%R by (field; lra).
    rewrite cis_add, cis_2PI_k. ring. }
  apply (f_equal im) in S1. simpl in S1. lra.
Qed.
