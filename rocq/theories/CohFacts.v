(** Angles, cones of phases, least squares over the bins. *)
From Verif Require Import Base BaseFacts Cx CxFacts ChunkSpec SroComp SroSpec CohDrift CohSpec.
From Coq Require Import Reals Lra Psatz.
Local Open Scope R_scope.

Lemma sq_mod_polar a t : sq_mod (cr a * cis t)%cx = a * a.
Proof. unfold sq_mod. cbn. pose proof (sin2_cos2 t) as H. unfold Rsqr in H. replace ((a * cos t - 0 * sin t) * (a * cos t - 0 * sin t) + (a * sin t + 0 * cos t) * (a * sin t + 0 * cos t)) with (a * a * (sin t * sin t + cos t * cos t)) by ring. rewrite H. ring. Qed.

Lemma angle_polar a t : 0 < a -> - PI < t <= PI -> angle (cr a * cis t)%cx = t.
Proof.
  intros Ha Ht. unfold angle. rewrite sq_mod_polar, sqrt_square by lra.
  destruct (Req_EM_T a 0) as [|_]; [lra|]. cbn. replace ((a * cos t - 0 * sin t) / a) with (cos t) by (field; lra).
  replace (a * sin t + 0 * cos t) with (a * sin t) by ring.
  destruct (Rle_dec 0 t) as [P|P].
  - pose proof (sin_ge_0 t P (proj2 Ht)) as S. destruct (Rle_dec 0 (a * sin t)) as [_|N]; [|exfalso; apply N; nra]. apply acos_cos. lra.
  - assert (S : sin t < 0) by (rewrite <- (Ropp_involutive t), sin_neg; pose proof (sin_gt_0 (- t)); lra).
    destruct (Rle_dec 0 (a * sin t)) as [N|_]; [exfalso; nra|]. rewrite <- (cos_neg t), acos_cos; lra.
Qed.

(** [z] has a phase between [lo] and [hi]. *)
Definition phases (lo hi : R) (z : cx) : Prop := exists a t, 0 < a /\ lo <= t <= hi /\ z = (cr a * cis t)%cx.

Lemma polar_upper x y : 0 <= y -> (x <> 0 \/ y <> 0) -> exists m p, 0 < m /\ 0 <= p <= PI /\ x = m * cos p /\ y = m * sin p.
Proof.
  intros Hy Hn. assert (P : 0 < x * x + y * y).
  { pose proof (Rle_0_sqr x) as X. pose proof (Rle_0_sqr y) as Y. unfold Rsqr in *. destruct Hn as [N|N]; apply Rsqr_pos_lt in N; unfold Rsqr in N; lra. }
  set (m := sqrt (x * x + y * y)). assert (Hm : 0 < m) by (apply sqrt_lt_R0; exact P).
  assert (M2 : m * m = x * x + y * y) by (apply sqrt_sqrt; lra).
  assert (B : -1 <= x / m <= 1).
  { assert (E : x / m * m = x) by (field; lra). assert (A1 : x <= m) by (pose proof (Rle_0_sqr y); unfold Rsqr in *; nra). assert (A2 : - m <= x) by (pose proof (Rle_0_sqr y); unfold Rsqr in *; nra).
    split; apply (Rmult_le_reg_r m); lra. }
  exists m, (acos (x / m)). split; [exact Hm|]. split; [apply acos_bound|]. rewrite cos_acos, sin_acos by exact B. split; [field; lra|].
  assert (E : 1 - Rsqr (x / m) = (y / m) * (y / m)).
  { unfold Rsqr. replace (1 - x / m * (x / m)) with ((m * m - x * x) / (m * m)) by (field; lra). rewrite M2. replace (x * x + y * y - x * x) with (y * y) by ring. rewrite <- M2. field. lra. }
  rewrite E, sqrt_square; [field; lra|]. apply Rmult_le_pos; [lra|]. left. now apply Rinv_0_lt_compat.
Qed.

Lemma phases_mono lo hi lo' hi' z : lo' <= lo -> hi <= hi' -> phases lo hi z -> phases lo' hi' z.
Proof. intros A B (a & t & Ha & Ht & ->). exists a, t. repeat split; try lra. Qed.
Lemma phases_scale lo hi x z : 0 < x -> phases lo hi z -> phases lo hi (cr x * z)%cx.
Proof. intros Hx (a & t & Ha & Ht & ->). exists (x * a), t. split; [nra|]. split; [exact Ht|]. rewrite cr_mul. ring. Qed.
Lemma phases_turn lo hi u z : phases lo hi z -> phases (lo + u) (hi + u) (z * cis u)%cx.
Proof. intros (a & t & Ha & Ht & ->). exists a, (t + u). split; [exact Ha|]. split; [lra|]. rewrite cis_add. ring. Qed.
Lemma phases_conj lo hi z : phases lo hi z -> phases (- hi) (- lo) (conj z).
Proof. intros (a & t & Ha & Ht & ->). exists a, (- t). split; [exact Ha|]. split; [lra|]. rewrite conj_mul, conj_cr, conj_cis. reflexivity. Qed.

Lemma phases_add_ordered lo hi a b t u : 0 < a -> 0 < b -> lo <= t -> t <= u -> u <= hi -> u - t < PI -> phases lo hi (cr a * cis t + cr b * cis u)%cx.
Proof.
  intros Ha Hb H1 H2 H3 H4. set (d := u - t).
  assert (Sd : 0 <= sin d) by (apply sin_ge_0; unfold d; lra).
  destruct (polar_upper (a + b * cos d) (b * sin d)) as (m & p & Hm & Hp & Ex & Ey).
  { nra. }
  { destruct (Req_dec d 0) as [Z|Z]; [left; rewrite Z, cos_0; lra|right]. assert (0 < sin d) by (apply sin_gt_0; unfold d in *; lra). nra. }
  exists m, (t + p). split; [exact Hm|]. split.
  - split; [lra|]. enough (p <= d) by (unfold d in *; lra).
    destruct (Rle_dec p d) as [|N]; [assumption|exfalso].
    assert (E : m * sin (d - p) = a * sin d).
    { rewrite sin_minus. replace (m * (sin d * cos p - cos d * sin p)) with (sin d * (m * cos p) - cos d * (m * sin p)) by ring. rewrite <- Ex, <- Ey. ring. }
    destruct (Req_dec p PI) as [Pp|Pp].
    + rewrite Pp, sin_PI in Ey. rewrite Pp, cos_PI in Ex. assert (sin d = 0) by nra.
      assert (d = 0). { destruct (Req_dec d 0); [assumption|]. assert (0 < sin d) by (apply sin_gt_0; unfold d in *; lra). lra. }
      rewrite H0, cos_0 in Ex. lra.
    + assert (S : 0 < sin (p - d)) by (apply sin_gt_0; unfold d in *; lra). replace (d - p) with (- (p - d)) in E by ring. rewrite sin_neg in E. nra.
  - replace u with (t + d) by (unfold d; ring). rewrite !cis_add.
    replace (cr a * cis t + cr b * (cis t * cis d))%cx with (cis t * (cr a + cr b * cis d))%cx by ring.
    replace (cr m * (cis t * cis p))%cx with (cis t * (cr m * cis p))%cx by ring. f_equal.
    apply cx_eq; cbn; lra.
Qed.

Lemma phases_add lo hi y z : hi - lo < PI -> phases lo hi y -> phases lo hi z -> phases lo hi (y + z)%cx.
Proof.
  intros H (a & t & Ha & Ht & ->) (b & u & Hb & Hu & ->). destruct (Rle_dec t u) as [L|L].
  - apply phases_add_ordered; lra.
  - replace (cr a * cis t + cr b * cis u)%cx with (cr b * cis u + cr a * cis t)%cx by ring. apply phases_add_ordered; lra.
Qed.

Lemma phases_mix lo hi al y z : hi - lo < PI -> 0 <= al <= 1 -> phases lo hi y -> phases lo hi z -> phases lo hi (cr al * y + cr (1 - al) * z)%cx.
Proof.
  intros H Hal Hy Hz. destruct (Req_dec al 0) as [->|N0].
  { replace (cr 0 * y + cr (1 - 0) * z)%cx with z by (apply cx_eq; cbn; ring). exact Hz. }
  destruct (Req_dec al 1) as [->|N1].
  { replace (cr 1 * y + cr (1 - 1) * z)%cx with y by (apply cx_eq; cbn; ring). exact Hy. }
  apply phases_add; [exact H|apply phases_scale; [lra|exact Hy]|apply phases_scale; [lra|exact Hz]].
Qed.

Lemma phases_angle lo hi z : - PI < lo -> hi <= PI -> phases lo hi z -> lo <= angle z <= hi.
Proof. intros A B (a & t & Ha & Ht & ->). rewrite angle_polar by lra. exact Ht. Qed.

(** * drift_within in terms of cones *)
Definition fsign (K n : nat) : R := if (n <? K - 1)%nat then INR n else - INR (2 * (K - 1) - n).

Lemma fsign_bound K n : (n < 2 * (K - 1))%nat -> - INR (K - 1) <= fsign K n <= INR (K - 1).
Proof.
  intros H. unfold fsign. pose proof (pos_INR n). pose proof (pos_INR (K - 1)). pose proof (pos_INR (2 * (K - 1) - n)).
  destruct (Nat.ltb_spec n (K - 1)); split; try lra.
  - apply le_INR. lia.
  - apply Ropp_le_contravar, le_INR. lia.
Qed.

Lemma drift_phases K lo hi v : lo <= hi ->
  drift_within K lo hi v <-> length v = (2 * (K - 1))%nat /\
    forall n, (n < 2 * (K - 1))%nat -> 
      phases (PI / INR (K - 1) * (if (n <? K - 1)%nat then fsign K n * lo else fsign K n * hi)) (PI / INR (K - 1) * (if (n <? K - 1)%nat then fsign K n * hi else fsign K n * lo)) (nth n v czero).
Proof.
  intros Hl. unfold drift_within. split; intros [L H]; (split; [exact L|]); intros n Hn; specialize (H n Hn); fold (fsign K n) in *.
  - destruct H as (a & t & Ha & Ht & E). exists a, (PI / INR (K - 1) * fsign K n * t). split; [exact Ha|]. split; [|exact E].
    assert (P : 0 < PI / INR (K - 1)) by (apply Rdiv_lt_0_compat; [apply PI_RGT_0|apply lt_0_INR; lia]).
    unfold fsign. destruct (Nat.ltb_spec n (K - 1)) as [C|C].
    + pose proof (pos_INR n) as PN. split; rewrite Rmult_assoc; apply Rmult_le_compat_l; try lra; apply Rmult_le_compat_l; lra.
    + pose proof (pos_INR (2 * (K - 1) - n)) as PN. split; rewrite Rmult_assoc; apply Rmult_le_compat_l; try lra; nra.
  - destruct H as (a & t & Ha & Ht & E).
    assert (P : 0 < PI / INR (K - 1)) by (apply Rdiv_lt_0_compat; [apply PI_RGT_0|apply lt_0_INR; lia]).
    destruct (Req_dec (fsign K n) 0) as [Z|Z].
    + exists a, lo. split; [exact Ha|]. split; [lra|]. rewrite E, Z. f_equal. f_equal. rewrite Z in Ht. destruct (n <? K - 1)%nat; lra.
    + assert (NZ : PI / INR (K - 1) * fsign K n <> 0) by (apply Rmult_integral_contrapositive; split; [lra|exact Z]).
      exists a, (t / (PI / INR (K - 1) * fsign K n)). split; [exact Ha|].
      split; [|rewrite E; f_equal; f_equal; set (y := PI / INR (K - 1) * fsign K n) in *; field; exact NZ].
      set (w := t / (PI / INR (K - 1) * fsign K n)). assert (Et : t = PI / INR (K - 1) * fsign K n * w) by (unfold w; set (y := PI / INR (K - 1) * fsign K n) in *; field; exact NZ).
      clearbody w. subst t. rewrite !(Rmult_assoc (PI / INR (K - 1))) in Ht. destruct Ht as [T1 T2]. apply Rmult_le_reg_l in T1, T2; try exact P.
      unfold fsign in *. destruct (Nat.ltb_spec n (K - 1)) as [C|C].
      * assert (0 < INR n) by (pose proof (pos_INR n); lra). split; apply (Rmult_le_reg_l (INR n)); lra.
      * assert (0 < INR (2 * (K - 1) - n)) by (pose proof (pos_INR (2 * (K - 1) - n)); lra). split; apply (Rmult_le_reg_l (INR (2 * (K - 1) - n))); lra.
Qed.

(** * sums *)
Lemma dot_ext n f g f' g' : (forall i, (i < n)%nat -> f i = f' i /\ g i = g' i) -> dot n f g = dot n f' g'.
Proof. induction n as [|n IH]; intros H; [reflexivity|]. cbn. rewrite IH by (intros; apply H; lia). destruct (H n ltac:(lia)) as [-> ->]. reflexivity. Qed.
Lemma dot_le n f g h : (forall i, (i < n)%nat -> f i * g i <= f i * h i) -> dot n f g <= dot n f h.
Proof. induction n as [|n IH]; intros H; [apply Rle_refl|]. cbn. apply Rplus_le_compat; [apply IH; intros; apply H; lia|apply H; lia]. Qed.
Lemma dot_scale n a b f g : dot n (fun i => a * f i) (fun i => b * g i) = a * b * dot n f g.
Proof. induction n as [|n IH]; [cbn; ring|]. cbn. rewrite IH. ring. Qed.
Lemma dot_rev n M : 6 * dot n INR (fun i => M - INR i) = 3 * M * (INR n * (INR n - 1)) - (INR n - 1) * INR n * (2 * INR n - 1).
Proof. induction n as [|n IH]; [cbn; ring|]. cbn [dot]. rewrite Rmult_plus_distr_l, IH, S_INR. ring. Qed.
Lemma dot_sq n : 6 * dot n INR INR = (INR n - 1) * INR n * (2 * INR n - 1).
Proof. induction n as [|n IH]; [cbn; ring|]. cbn [dot]. rewrite Rmult_plus_distr_l, IH, S_INR. ring. Qed.

Lemma least_squares_within K x lo hi v : (2 <= K)%nat -> 0 < x -> -1 < lo -> lo <= hi -> hi < 1 -> drift_within K lo hi v ->
  exists e, least_squares K x v = Ok e /\ ls_gain K * lo <= e * x <= ls_gain K * hi.
Proof.
  intros HK Hx Hlo Hlh Hhi D. apply drift_phases in D; [|exact Hlh]. destruct D as [L D]. unfold least_squares. rewrite L.
  destruct (Nat.ltb_spec (2 * (K - 1)) K); [lia|]. eexists. split; [reflexivity|].
  set (M := INR K). set (c := PI * x / (M * 2)).
  assert (HM : 2 <= M) by (apply (le_INR 2 K) in HK; exact HK).
  assert (KM : INR (K - 1) = M - 1) by (rewrite minus_INR by lia; reflexivity).
  pose proof PI_RGT_0 as HPI. assert (Hc : 0 < c) by (unfold c; apply Rdiv_lt_0_compat; fold M; nra).
  assert (E1 : dot K (fun i => PI * INR i * x / (M * 2)) (fun i => PI * INR i * x / (M * 2)) = c * c * dot K INR INR).
  { rewrite <- dot_scale. apply dot_ext. intros i Hi. unfold c. split; (field; fold M; lra). }
  rewrite E1. set (V := fun i => angle (nth (2 * (K - 1) - K + i) v czero)).
  set (p := PI / (M - 1)). assert (Hp : 0 < p) by (apply Rdiv_lt_0_compat; lra).
  assert (B : forall i, (0 < i < K)%nat -> - (p * hi * (M - INR i)) <= V i <= - (p * lo * (M - INR i))).
  { intros i Hi. assert (Hn : (2 * (K - 1) - K + i < 2 * (K - 1))%nat) by lia. specialize (D _ Hn).
    unfold fsign in D. destruct (Nat.ltb_spec (2 * (K - 1) - K + i) (K - 1)); [lia|].
    replace (2 * (K - 1) - (2 * (K - 1) - K + i))%nat with (K - i)%nat in D by lia. rewrite KM, minus_INR in D by lia. fold M in D. fold p in D.
    assert (Hi1 : 1 <= INR i) by (apply (le_INR 1); lia). assert (HiM : INR i <= M - 1) by (rewrite <- KM; apply le_INR; lia).
    assert (Ep : p * (M - 1) = PI) by (unfold p; field; lra).
    assert (Q1 : 0 < p * (M - INR i)) by nra. assert (Q2 : p * (M - INR i) <= PI) by nra.
    apply phases_angle in D; [|nra|nra]. unfold V. split; [replace (- (p * hi * (M - INR i))) with (p * (- (M - INR i) * hi)) by ring|replace (- (p * lo * (M - INR i))) with (p * (- (M - INR i) * lo)) by ring]; apply D. }
  assert (E2 : forall w, dot K (fun i => PI * INR i * x / (M * 2)) (fun i => - (p * w * (M - INR i))) = c * (- (p * w)) * dot K INR (fun i => M - INR i)).
  { intros w. rewrite <- dot_scale. apply dot_ext. intros i Hi. unfold c. split; [field; fold M; lra|ring]. }
  assert (W : forall i, (i < K)%nat -> 0 <= PI * INR i * x / (M * 2)).
  { intros i Hi. pose proof (pos_INR i). unfold Rdiv. apply Rmult_le_pos; [apply Rmult_le_pos; [apply Rmult_le_pos; lra|lra]|]. left. apply Rinv_0_lt_compat. lra. }
  assert (Lo : dot K (fun i => PI * INR i * x / (M * 2)) V <= c * (- (p * lo)) * dot K INR (fun i => M - INR i)).
  { rewrite <- E2. apply dot_le. intros i Hi. destruct (Nat.eq_dec i 0) as [->|Hne]; [cbn; unfold Rdiv; rewrite Rmult_0_r, !Rmult_0_l; lra|].
    apply Rmult_le_compat_l; [now apply W|]. apply B. lia. }
  assert (Hi' : c * (- (p * hi)) * dot K INR (fun i => M - INR i) <= dot K (fun i => PI * INR i * x / (M * 2)) V).
  { rewrite <- E2. apply dot_le. intros i Hi. destruct (Nat.eq_dec i 0) as [->|Hne]; [cbn; unfold Rdiv; rewrite Rmult_0_r, !Rmult_0_l; lra|].
    apply Rmult_le_compat_l; [now apply W|]. apply B. lia. }
  pose proof (dot_rev K M) as DR. pose proof (dot_sq K) as DS. fold M in DR, DS.
  set (A := dot K INR (fun i => M - INR i)) in *. set (Q := dot K INR INR) in *. set (S := dot K _ V) in *.
  assert (EA : A = (M - 1) * M * (M + 1) / 6) by lra. assert (EQ : Q = (M - 1) * M * (2 * M - 1) / 6) by lra.
  assert (PQ : 0 < Q) by (rewrite EQ; apply Rdiv_lt_0_compat; [repeat apply Rmult_lt_0_compat; lra|lra]).
  assert (G : forall w, - (c * - (p * w) * A / (c * c * Q)) * x = ls_gain K * w).
  { intros w. rewrite EA, EQ. unfold ls_gain, p, c. fold M. field. repeat split; lra. }
  rewrite <- (G lo), <- (G hi). assert (PD : 0 < / (c * c * Q)) by (apply Rinv_0_lt_compat; apply Rmult_lt_0_compat; [apply Rmult_lt_0_compat|]; assumption).
  unfold Rdiv. split; apply Rmult_le_compat_r; try lra; apply Ropp_le_contravar; apply Rmult_le_compat_r; lra.
Qed.
