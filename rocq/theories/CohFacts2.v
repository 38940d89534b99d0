(** Products of coherences, and one estimation. *)
From Verif Require Import Base BaseFacts Cx CxFacts ChunkSpec SroComp SroSpec CohDrift CohSpec CohFacts.
From Verif Require ScmFacts2.
From Coq Require Import Reals Lra Psatz.
Local Open Scope R_scope.

Lemma cis_2PI_Z k : cis (2 * PI * IZR k) = cone.
Proof.
  destruct (Z_le_gt_dec 0 k) as [H|H].
  - rewrite <- (Z2Nat.id k) by lia. rewrite <- INR_IZR_INZ. apply cis_2PI_k.
  - replace (2 * PI * IZR k) with (- (2 * PI * INR (Z.to_nat (- k)))) by (rewrite INR_IZR_INZ, Z2Nat.id, opp_IZR by lia; ring).
    rewrite <- conj_cis, cis_2PI_k. apply cx_eq; cbn; ring.
Qed.

Lemma mirror_length r : length (mirror r) = (2 * (length r - 1))%nat.
Proof. unfold mirror. rewrite !removelast_firstn_len, app_length, !firstn_length, rev_length, map_length. lia. Qed.
Lemma mirror_nth r n : (n < 2 * (length r - 1))%nat ->
  nth n (mirror r) czero = if (n <? length r - 1)%nat then nth n r czero else conj (nth (2 * (length r - 1) - n) r czero).
Proof.
  intros H. unfold mirror. rewrite !removelast_firstn_len, rev_length, map_length.
  destruct (Nat.ltb_spec n (length r - 1)) as [C|C].
  - rewrite app_nth1 by (rewrite firstn_length; lia). rewrite ScmFacts2.nth_firstn_lt by lia. reflexivity.
  - rewrite app_nth2 by (rewrite firstn_length; lia). rewrite firstn_length, Nat.min_l by lia. rewrite ScmFacts2.nth_firstn_lt by lia.
    rewrite rev_nth by (rewrite map_length; lia). rewrite map_length.
    rewrite (nth_indep _ czero (conj czero)) by (rewrite map_length; lia). rewrite map_nth. f_equal. f_equal. lia.
Qed.

Lemma with_drift_length d r : length (with_drift d r) = length r.
Proof. unfold with_drift. rewrite map_length, combine_length, seq_length. lia. Qed.
Lemma with_drift_nth d r n : (n < length r)%nat -> nth n (with_drift d r) czero = (nth n r czero * cis (2 * PI / INR (length r) * INR n * IZR d))%cx.
Proof.
  intros H. unfold with_drift. set (F := fun p => _). rewrite (nth_indep _ czero (F (0%nat, czero))) by (rewrite map_length, combine_length, seq_length; lia).
  rewrite map_nth, combine_nth by apply seq_length. rewrite seq_nth by exact H. reflexivity.
Qed.
Lemma residual_length a b K : length a = K -> length b = K -> length (residual a b) = (2 * (K - 1))%nat.
Proof. intros A B. unfold residual. rewrite mirror_length, map_length, combine_length. lia. Qed.
Lemma products_nth a b K n : length a = K -> length b = K -> (n < K)%nat ->
  nth n (map (fun p : cx * cx => (fst p * conj (snd p))%cx) (combine a b)) czero = (nth n a czero * conj (nth n b czero))%cx.
Proof.
  intros A B H. set (F := fun p : cx * cx => _). rewrite (nth_indep _ czero (F (czero, czero))) by (rewrite map_length, combine_length; lia).
  rewrite map_nth, combine_nth by lia. reflexivity.
Qed.

(** Coherences of delay [d], up to a factor. *)
Definition coh_delay (K : nat) (G : nat -> cx) (d : R) (w : list cx) : Prop :=
  length w = K /\ forall b, (b < K)%nat -> exists p, 0 < p /\ nth b w czero = (cr p * (G b * cis (PI / INR (K - 1) * INR b * d)))%cx.

Lemma sq_mod_pos z : z <> czero -> 0 < sq_mod z.
Proof.
  intros H. unfold sq_mod. destruct z as [x y]. cbn. pose proof (Rle_0_sqr x) as X. pose proof (Rle_0_sqr y) as Y.
  destruct (Req_dec x 0) as [->|N]; [destruct (Req_dec y 0) as [->|N]; [exfalso; apply H; reflexivity|]|]; apply Rsqr_pos_lt in N; unfold Rsqr in *; lra.
Qed.
Lemma mul_conj z : (z * conj z)%cx = cr (sq_mod z).
Proof. apply cx_eq; cbn; unfold sq_mod; ring. Qed.

Lemma product_drift K G d1 d2 F wPos wPri : (2 <= K)%nat -> (forall b, (b < K)%nat -> G b <> czero) ->
  coh_delay K G d1 wPos -> coh_delay K G d2 wPri ->
  drift_within K (d1 - d2 + IZR F) (d1 - d2 + IZR F) (with_drift F (residual wPos wPri)).
Proof.
  intros HK HG [L1 H1] [L2 H2]. split; [now rewrite with_drift_length, (residual_length _ _ K)|].
  assert (P : forall b, (b < K)%nat -> exists a, 0 < a /\ (nth b wPos czero * conj (nth b wPri czero))%cx = (cr a * cis (PI / INR (K - 1) * INR b * (d1 - d2)))%cx).
  { intros b Hb. destruct (H1 b Hb) as (p & Hp & ->). destruct (H2 b Hb) as (p' & Hp' & ->). exists (p * p' * sq_mod (G b)).
    split; [apply Rmult_lt_0_compat; [nra|apply sq_mod_pos, HG, Hb]|]. rewrite !conj_mul, conj_cr, conj_cis.
    replace (PI / INR (K - 1) * INR b * (d1 - d2)) with (PI / INR (K - 1) * INR b * d1 + - (PI / INR (K - 1) * INR b * d2)) by ring. rewrite cis_add, !cr_mul, <- mul_conj. ring. }
  intros n Hn. rewrite with_drift_nth by (rewrite (residual_length _ _ K); assumption). rewrite (residual_length _ _ K) by assumption.
  assert (Kp : 0 < INR (K - 1)) by (apply lt_0_INR; lia).
  assert (E2 : INR (2 * (K - 1)) = 2 * INR (K - 1)) by (rewrite mult_INR; reflexivity).
  unfold residual. rewrite mirror_nth by (rewrite map_length, combine_length; lia). rewrite map_length, combine_length, L1, L2, Nat.min_id.
  destruct (Nat.ltb_spec n (K - 1)) as [C|C]; rewrite (products_nth _ _ K) by (assumption || lia).
  - destruct (P n ltac:(lia)) as (a & Ha & ->). exists a, (d1 - d2 + IZR F). split; [exact Ha|]. split; [lra|].
    rewrite Rmult_plus_distr_l, cis_add. replace (2 * PI / INR (2 * (K - 1)) * INR n * IZR F) with (PI / INR (K - 1) * INR n * IZR F) by (rewrite E2; field; lra). ring.
  - destruct (P (2 * (K - 1) - n)%nat ltac:(lia)) as (a & Ha & ->). exists a, (d1 - d2 + IZR F). split; [exact Ha|]. split; [lra|].
    rewrite conj_mul, conj_cr, conj_cis.
    replace (2 * PI / INR (2 * (K - 1)) * INR n * IZR F) with (2 * PI * IZR F + - (PI / INR (K - 1) * INR (2 * (K - 1) - n) * IZR F)) by (rewrite (minus_INR (2 * (K - 1)) n), E2 by lia; field; lra).
    rewrite cis_add, cis_2PI_Z. replace (PI / INR (K - 1) * - INR (2 * (K - 1) - n) * (d1 - d2 + IZR F)) with (- (PI / INR (K - 1) * INR (2 * (K - 1) - n) * (d1 - d2)) + - (PI / INR (K - 1) * INR (2 * (K - 1) - n) * IZR F)) by ring.
    rewrite cis_add. ring.
Qed.

Lemma delayed_add N b x y v : delayed N b x (delayed N b y v) = delayed N b (y + x) v.
Proof. unfold delayed. replace (- (2 * PI * INR b * (y + x) / INR N)) with (- (2 * PI * INR b * y / INR N) + - (2 * PI * INR b * x / INR N)) by (unfold Rdiv; ring). rewrite cis_add. ring. Qed.

Lemma coherences_delay K q g d y : (2 <= K)%nat -> length y = K ->
  (forall b, (b < K)%nat -> entry y b 0 <> czero /\ g b <> czero /\ entry y b q = delayed (2 * (K - 1)) b d (g b * entry y b 0)%cx) ->
  coh_delay K (fun b => conj (g b)) d (coherences q y).
Proof.
  intros HK L H. unfold coherences. split; [now rewrite map_length|]. intros b Hb. destruct (H b Hb) as (A0 & G0 & E).
  set (F := fun row => coherence _ _). rewrite (nth_indep _ czero (F [])) by (rewrite map_length; lia). rewrite map_nth. unfold F.
  change (nth 0 (nth b y []) czero) with (entry y b 0). change (nth q (nth b y []) czero) with (entry y b q). rewrite E.
  set (A := entry y b 0) in *. set (B := delayed _ _ _ _).
  assert (PB : 0 < sq_mod B).
  { apply sq_mod_pos. unfold B, delayed. intros Z. apply cx_integral in Z. destruct Z as [Z|Z]; [apply cx_integral in Z; tauto|].
    set (u := - (2 * PI * INR b * d / INR (2 * (K - 1)))) in *. assert (S := sin2_cos2 u). unfold Rsqr, cis in *. assert (Z1 := f_equal re Z). assert (Z2 := f_equal im Z). cbn in Z1, Z2. rewrite Z1, Z2 in S. lra. }
  pose proof (sq_mod_pos A A0) as PA.
  exists (/ sqrt (sq_mod A * sq_mod B) * sq_mod A). split.
  - apply Rmult_lt_0_compat; [apply Rinv_0_lt_compat, sqrt_lt_R0; nra|exact PA].
  - unfold coherence. rewrite cr_mul, <- mul_conj. unfold B at 2. unfold delayed. rewrite !conj_mul, conj_cis, Ropp_involutive.
    replace (2 * PI * INR b * d / INR (2 * (K - 1))) with (PI / INR (K - 1) * INR b * d); [ring|].
    rewrite mult_INR. cbn [INR]. field. apply not_0_INR. lia.
Qed.

Lemma average_within K al lo hi avg r a : 0 <= al <= 1 -> lo <= hi -> hi - lo < 1 -> drift_within K lo hi avg -> drift_within K lo hi r ->
  average al false avg r = Ok a -> drift_within K lo hi a.
Proof.
  intros Hal Hl Hw Da Dr E. apply drift_phases in Da, Dr; try exact Hl. apply drift_phases; [exact Hl|]. destruct Da as [La Da], Dr as [Lr Dr].
  unfold average in E. rewrite La, Lr, Nat.eqb_refl in E. injection E as <-.
  split; [rewrite map_length, combine_length; lia|]. intros n Hn. specialize (Da n Hn). specialize (Dr n Hn).
  set (F := fun p : cx * cx => _). rewrite (nth_indep _ czero (F (czero, czero))) by (rewrite map_length, combine_length; lia). rewrite map_nth, combine_nth by lia. unfold F. cbn [fst snd].
  apply phases_mix; try assumption.
  pose proof (fsign_bound K n Hn) as B. pose proof PI_RGT_0. assert (Kp : 0 < INR (K - 1)) by (apply lt_0_INR; lia).
  assert (Ep : PI / INR (K - 1) * INR (K - 1) = PI) by (field; lra). assert (P : 0 < PI / INR (K - 1)) by (now apply Rdiv_lt_0_compat).
  set (p := PI / INR (K - 1)) in *. clearbody p.
  destruct (n <? K - 1)%nat; [replace (p * (fsign K n * hi) - p * (fsign K n * lo)) with ((p * fsign K n) * (hi - lo)) by ring|replace (p * (fsign K n * lo) - p * (fsign K n * hi)) with ((p * - fsign K n) * (hi - lo)) by ring].
  - assert (p * fsign K n <= PI) by nra. nra.
  - assert (p * - fsign K n <= PI) by nra. nra.
Qed.
Lemma drift_mono K lo hi lo' hi' v : lo' <= lo -> hi <= hi' -> drift_within K lo hi v -> drift_within K lo' hi' v.
Proof. intros A B [L H]. split; [exact L|]. intros n Hn. destruct (H n Hn) as (a & t & Ha & Ht & E). exists a, t. split; [exact Ha|]. split; [lra|exact E]. Qed.

Lemma average_ok al first avg r : length avg = length r -> exists a, average al first avg r = Ok a /\ length a = length r.
Proof. intros H. unfold average. destruct first; [eauto|]. rewrite H, Nat.eqb_refl. eexists. split; [reflexivity|]. rewrite map_length, combine_length. lia. Qed.

Lemma cohdrift_ok c K Ns wPos wPri avg first f1 f2 : (2 <= K)%nat -> length wPos = K -> length wPri = K -> length avg = (2 * (K - 1))%nat ->
  exists e a, cohdrift c Ns wPos wPri avg first f1 f2 = Ok (e, a) /\ length a = (2 * (K - 1))%nat.
Proof.
  intros HK L1 L2 La. unfold cohdrift. rewrite L1, L2, Nat.eqb_refl. cbn [negb].
  destruct (average_ok (cd_alpha c) first avg (with_drift (f1 - f2) (residual wPos wPri))) as (a & -> & Ha); [rewrite with_drift_length, (residual_length _ _ K); assumption|].
  cbn [bind]. rewrite with_drift_length, (residual_length _ _ K) in Ha by assumption.
  destruct (cd_search c) as [s|]; cbn [bind]; [eauto|]. unfold least_squares. rewrite Ha. destruct (Nat.ltb_spec (2 * (K - 1)) K); [lia|]. cbn [bind]. eauto.
Qed.

(** One estimation. *)
Lemma cohdrift_within c K Ns G d1 d2 lo hi wPos wPri avg first f1 f2 e a : (2 <= K)%nat -> 0 < INR (cd_seg c) * Ns -> 0 <= cd_alpha c <= 1 -> sound_method K c ->
  (forall b, (b < K)%nat -> G b <> czero) -> coh_delay K G d1 wPos -> coh_delay K G d2 wPri ->
  -1 < lo -> hi < 1 -> hi - lo < 1 -> lo <= d1 - d2 + IZR (f1 - f2) <= hi -> (first = false -> drift_within K lo hi avg) ->
  cohdrift c Ns wPos wPri avg first f1 f2 = Ok (e, a) ->
  drift_within K lo hi a /\ gain K c * lo <= e * (INR (cd_seg c) * Ns) <= gain K c * hi.
Proof.
  intros HK Hx Hal Hm HG W1 W2 Hlo Hhi Hw Hd Ha E. unfold cohdrift in E. rewrite (proj1 W1), (proj1 W2), Nat.eqb_refl in E. cbn [negb] in E.
  pose proof (product_drift K G d1 d2 (f1 - f2) wPos wPri HK HG W1 W2) as P. apply (drift_mono _ _ _ lo hi) in P; try lra.
  destruct (average (cd_alpha c) first avg (with_drift (f1 - f2) (residual wPos wPri))) as [a'|] eqn:EA; [|discriminate]. cbn [bind] in E.
  assert (D : drift_within K lo hi a').
  { destruct first; [injection EA as <-; exact P|]. apply (average_within K (cd_alpha c) lo hi avg _ a' Hal) in EA; try assumption; [lra|now apply Ha]. }
  unfold gain, sound_method in *. destruct (cd_search c) as [s|]; cbn [bind] in E.
  - injection E as <- <-. split; [exact D|]. specialize (Hm lo hi a' Hlo Hhi D). replace (- s a' / (INR (cd_seg c) * Ns) * (INR (cd_seg c) * Ns)) with (- s a') by (field; split; intros Z; rewrite Z in Hx; lra). lra.
  - destruct (least_squares_within K (INR (cd_seg c) * Ns) lo hi a' HK Hx Hlo ltac:(lra) Hhi D) as (e' & E' & B). rewrite E' in E. cbn [bind] in E. injection E as <- <-. split; assumption.
Qed.
