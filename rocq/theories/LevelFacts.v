(** Proofs about VAD, noise levels and rotation. *)
From Verif Require Import Base BaseFacts Level.
From Coq Require Import QArith Reals Lra Psatz.
Open Scope R_scope.

Lemma rsum_app a b : rsum (a ++ b) = rsum a + rsum b.
Proof. unfold rsum. induction a as [|x a IH]; cbn [app fold_right]; [ring|]. rewrite IH. ring. Qed.
Lemma rsum_scale k l : rsum (map (Rmult k) l) = k * rsum l.
Proof. unfold rsum. induction l as [|x l IH]; cbn [map fold_right]; [ring|]. rewrite IH. ring. Qed.
Lemma energy_scale a x : energy (scale a x) = a * a * energy x.
Proof.
  unfold energy, scale. rewrite map_map. rewrite <- rsum_scale. rewrite map_map. f_equal. apply map_ext. intros v. ring.
Qed.
Lemma power_scale a x : power (scale a x) = a * a * power x.
Proof. unfold power. rewrite energy_scale. unfold scale. rewrite map_length. unfold Rdiv. ring. Qed.
Lemma energy_nonneg x : 0 <= energy x.
Proof. unfold energy, rsum. induction x as [|v x IH]; cbn [map fold_right]; [lra|]. nra. Qed.

(** ** VAD *)
Lemma mapM_ok_nth {A B} (f : A -> res B) l r d d' : mapM f l = Ok r -> length r = length l /\ forall i, (i < length l)%nat -> f (nth i l d) = Ok (nth i r d').
Proof.
  revert r. induction l as [|a l IH]; intros r H; cbn in H.
  - injection H as <-. split; [reflexivity | intros i Hi; cbn in Hi; lia].
  - destruct (f a) as [b|] eqn:E; [|discriminate]. cbn in H. destruct (mapM f l) as [r'|] eqn:E'; [|discriminate]. cbn in H. injection H as <-.
    destruct (IH r' eq_refl) as [H1 H2]. split; [cbn; lia|]. intros [|i] Hi; cbn; [exact E|]. apply H2. cbn in Hi. lia.
Qed.
Lemma mapM_exists {A B} (f : A -> res B) l : (forall a, In a l -> exists b, f a = Ok b) -> exists r, mapM f l = Ok r.
Proof.
  induction l as [|a l IH]; intros H; [eexists; reflexivity|]. destruct (H a (or_introl eq_refl)) as [b Hb]. destruct IH as [r Hr]; [intros; apply H; right; assumption|].
  cbn. rewrite Hb. cbn. rewrite Hr. eexists. reflexivity.
Qed.

Lemma slice_select (x : list R) a b : (b <= length x)%nat ->
  slice a b x = map (fun j => nth j x 0) (filter (fun j => Nat.leb a j && Nat.ltb j b) (seq 0 (length x))).
Proof.
  intros Hb. unfold slice. 
  assert (G : forall (y : list R) s, filter (fun j => Nat.leb a j && Nat.ltb j b) (seq s (length y)) =
     seq (Nat.max a s) (Nat.min b (s + length y) - Nat.max a s)).
  { intros y. induction y as [|v y IH]; intros s; cbn [length seq filter].
    - replace (Nat.min b (s + 0) - Nat.max a s)%nat with 0%nat by lia. reflexivity.
    - rewrite IH. destruct (Nat.leb_spec a s); cbn [andb].
      + destruct (Nat.ltb_spec s b).
        * replace (Nat.max a s) with s by lia. replace (Nat.min b (s + S (length y)) - s)%nat with (S (Nat.min b (S s + length y) - Nat.max a (S s))) by lia.
          cbn [seq]. f_equal. f_equal. lia.
        * replace (Nat.min b (S s + length y) - Nat.max a (S s))%nat with 0%nat by lia. replace (Nat.min b (s + S (length y)) - Nat.max a s)%nat with 0%nat by lia. reflexivity.
      + f_equal; lia. }
  rewrite G. cbn [Nat.add]. rewrite Nat.max_0_r, (Nat.min_l b) by lia.
  apply (nth_ext _ _ 0 0).
  - rewrite firstn_length, skipn_length, map_length, seq_length. lia.
  - intros n Hn. rewrite firstn_length, skipn_length in Hn.
    assert (E1 : nth n (firstn (b - a) (skipn a x)) 0 = nth (a + n) x 0).
    { transitivity (nth n (skipn a x) 0).
      - rewrite <- (firstn_skipn (b - a) (skipn a x)) at 2. rewrite app_nth1 by (rewrite firstn_length, skipn_length; lia). reflexivity.
      - assert (Ha : (a <= length x)%nat) by lia. rewrite <- (firstn_skipn a x) at 2. rewrite app_nth2 by (rewrite firstn_length; lia). rewrite firstn_length. f_equal. lia. }
    rewrite E1. rewrite (nth_indep (map _ _) 0 (nth 0 x 0)) by (rewrite map_length, seq_length; lia).
    rewrite (map_nth (fun j => nth j x 0)). rewrite seq_nth by lia. reflexivity.
Qed.

Definition window (n nw i : nat) : list nat := filter (fun j => Nat.leb (i - nw / 2) j && Nat.ltb j (i + nw / 2)) (seq 0 n).
Lemma slice_window x nw i : slice (i - nw / 2) (Nat.min (i + nw / 2) (length x)) x = map (fun j => nth j x 0) (window (length x) nw i).
Proof.
  rewrite slice_select by lia. unfold window. f_equal. apply filter_ext_in. intros j Hj. apply in_seq in Hj.
  destruct (Nat.leb (i - nw / 2) j); cbn [andb]; [|reflexivity]. destruct (Nat.ltb_spec j (Nat.min (i + nw / 2) (length x))), (Nat.ltb_spec j (i + nw / 2)); try reflexivity; lia.
Qed.
Lemma window_self n nw i : (2 <= nw)%nat -> (i < n)%nat -> In i (window n nw i).
Proof.
  intros Hw Hi. apply filter_In. split; [apply in_seq; lia|]. assert (1 <= nw / 2)%nat by (apply Nat.div_le_lower_bound; lia).
  apply andb_true_iff. split; [apply Nat.leb_le | apply Nat.ltb_lt]; lia.
Qed.

Lemma oracle_ok x nw thr : (2 <= nw)%nat -> exists v, oracle_vad x nw thr = Ok v /\ length v = length x /\
  forall i, (i < length x)%nat -> (nth i v false = true <->
    thr < rsum (map (fun j => nth j x 0 * nth j x 0) (window (length x) nw i)) / INR (length (window (length x) nw i))).
Proof.
  intros Hw. destruct (mapM_exists (fun ii => compute_vad (slice (ii - nw / 2) (Nat.min (ii + nw / 2) (length x)) x) thr) (seq 0 (length x))) as [v Hv].
  { intros i Hi. apply in_seq in Hi. rewrite slice_window. assert (H := window_self (length x) nw i Hw ltac:(lia)).
    destruct (window (length x) nw i); [destruct H|]. eexists. reflexivity. }
  exists v. split; [exact Hv|]. destruct (mapM_ok_nth _ _ _ 0%nat false Hv) as [H1 H2]. rewrite seq_length in H1, H2. split; [exact H1|].
  intros i Hi. specialize (H2 i Hi). rewrite seq_nth in H2 by exact Hi. cbn [Nat.add] in H2. rewrite slice_window in H2.
  assert (H := window_self (length x) nw i Hw Hi). unfold compute_vad in H2.
  destruct (map (fun j => nth j x 0) (window (length x) nw i)) as [|c cs] eqn:E; [destruct (window (length x) nw i); [destruct H | discriminate]|].
  rewrite <- E in H2. injection H2 as H2. rewrite <- H2. clear H2. unfold power, energy. rewrite map_map, map_length.
  destruct (Rlt_dec _ _) as [Hr|Hr]; split; intros Ha; try exact Hr; try reflexivity; try discriminate. exfalso. exact (Hr Ha).
Qed.

Lemma slice_map {A B} (f : A -> B) a b l : slice a b (map f l) = map f (slice a b l).
Proof. unfold slice. rewrite skipn_map, firstn_map. reflexivity. Qed.
Lemma mapM_ext_in {A B} (f g : A -> res B) l : (forall a, In a l -> f a = g a) -> mapM f l = mapM g l.
Proof.
  induction l as [|a l IH]; intros H; [reflexivity|]. cbn. rewrite (H a (or_introl eq_refl)). rewrite IH by (intros; apply H; right; assumption). reflexivity.
Qed.
Lemma compute_vad_scale a c thr : a <> 0 -> compute_vad (scale a c) (a * a * thr) = compute_vad c thr.
Proof.
  intros Ha. unfold compute_vad. destruct c as [|v c]; [reflexivity|]. change (scale a (v :: c)) with (a * v :: scale a c).
  change (a * v :: scale a c) with (scale a (v :: c)). rewrite power_scale.
  assert (Hp : 0 < a * a) by (destruct (Rtotal_order a 0) as [|[|]]; [nra | congruence | nra]).
  cbn [scale map]. destruct (Rlt_dec (a * a * thr) (a * a * power (v :: c))), (Rlt_dec thr (power (v :: c))); try reflexivity; exfalso; nra.
Qed.
Lemma oracle_scale a x nw thr : a <> 0 -> oracle_vad (scale a x) nw (a * a * thr) = oracle_vad x nw thr.
Proof.
  intros Ha. unfold oracle_vad. assert (El : length (scale a x) = length x) by apply map_length. rewrite El. apply mapM_ext_in. intros i _. unfold scale. rewrite slice_map. apply compute_vad_scale. exact Ha.
Qed.
Lemma amax2_scale a x m : amax2 x = Ok m -> amax2 (scale a x) = Ok (a * a * m).
Proof.
  destruct x as [|v l]; [discriminate|]. cbn. intros H. injection H as <-. f_equal. induction l as [|w l IH]; cbn; [ring|]. rewrite IH.
  assert (Hp : 0 <= a * a) by nra. replace (a * w * (a * w)) with (a * a * (w * w)) by ring. rewrite RmaxRmult by exact Hp. reflexivity.
Qed.
Lemma get_vad_scale a x e nw : a <> 0 -> get_vad (scale a x) e nw = get_vad x e nw.
Proof.
  intros Ha. unfold get_vad. destruct (amax2 x) as [m|er] eqn:E.
  - rewrite (amax2_scale a x m E). cbn [bind]. replace (a * a * m / e) with (a * a * (m / e)) by (unfold Rdiv; ring). apply oracle_scale. exact Ha.
  - destruct x; [|discriminate]. cbn in *. injection E as <-. reflexivity.
Qed.

(** ** Noise *)
Lemma pow10_pos x : 0 < pow10 x. Proof. apply exp_pos. Qed.
Lemma pow10_add x y : pow10 (x + y) = pow10 x * pow10 y. Proof. apply Rpower_plus. Qed.
Lemma pow10_log10 x : 0 < x -> pow10 (log10 x) = x.
Proof.
  intros H. unfold pow10, log10, Rpower. assert (ln 10 <> 0) by (assert (0 < ln 10) by (rewrite <- ln_1; apply ln_increasing; lra); lra).
  replace (ln x / ln 10 * ln 10) with (ln x) by (field; assumption). apply exp_ln. exact H.
Qed.
Lemma gain_square snr r : 0 < r -> pow10 ((10 * log10 r - snr) / 20) * pow10 ((10 * log10 r - snr) / 20) = r / pow10 (snr / 10).
Proof.
  intros H. rewrite <- pow10_add. replace ((10 * log10 r - snr) / 20 + (10 * log10 r - snr) / 20) with (log10 r + - (snr / 10)) by field.
  rewrite pow10_add, pow10_log10 by exact H. unfold Rdiv. f_equal. unfold pow10. apply Rpower_Ropp.
Qed.
Lemma noise_snr sig noise snr : 0 < power sig -> 0 < power noise ->
  power sig / power (snd (apply_noise sig noise snr)) = pow10 (snr / 10).
Proof.
  intros Hs Hn. unfold apply_noise. cbn [snd]. rewrite power_scale.
  replace (- (snr - 10 * log10 (power sig / power noise)) / 20) with ((10 * log10 (power sig / power noise) - snr) / 20) by field.
  rewrite gain_square by (apply Rdiv_lt_0_compat; assumption). assert (H := pow10_pos (snr / 10)). field. lra.
Qed.
Lemma lfilter_scale ir a x : lfilter ir (scale a x) = scale a (lfilter ir x).
Proof.
  unfold lfilter. unfold scale at 2 3. rewrite map_map. rewrite map_length. apply map_ext. intros n. rewrite <- rsum_scale. f_equal. rewrite map_map. apply map_ext. intros k.
  destruct (Nat.leb k n); [|ring]. unfold scale. assert (E0 : nth (n - k) (map (Rmult a) x) 0 = a * nth (n - k) x 0) by (rewrite <- (map_nth (Rmult a)), Rmult_0_r; reflexivity). rewrite E0. ring.
Qed.
Lemma mic_snr irs ds ir_n n snr : let y := mic_signal (length n) irs ds in let n' := noise_for_mic_snr irs ds ir_n n snr in
  0 < energy y -> 0 < energy (lfilter ir_n n) -> energy y / energy (lfilter ir_n n') = pow10 (snr / 10).
Proof.
  intros y n' Hy Hn. subst n'. unfold noise_for_mic_snr. fold y. rewrite lfilter_scale, energy_scale. rewrite gain_square by (apply Rdiv_lt_0_compat; assumption).
  assert (H := pow10_pos (snr / 10)). field. lra.
Qed.

(** ** Rotation *)
Lemma dot_pos t : t <> mkV 0 0 0 -> 0 < dot t t.
Proof.
  destruct t as [x y z]. intros H. unfold dot. cbn. destruct (Req_dec x 0) as [->|]; [|nra]. destruct (Req_dec y 0) as [->|]; [|nra]. destruct (Req_dec z 0) as [->|]; [|nra].
  exfalso. apply H. reflexivity.
Qed.
Section Rot.
Variables b1 b2 b3 : R.
Hypothesis unit : b1 * b1 + b2 * b2 + b3 * b3 = 1.
Hypothesis nonpar : b1 * b1 + b2 * b2 <> 0.
Let k := / (1 + b3).
Lemma b3_ne : 1 + b3 <> 0. Proof. intros H. apply nonpar. nra. Qed.
Lemma coef : (1 - b3) / (b1 * b1 + b2 * b2) = k.
Proof.
  unfold k. assert (H := b3_ne). assert (E : b1 * b1 + b2 * b2 = (1 - b3) * (1 + b3)) by nra. rewrite E.
  assert (1 - b3 <> 0) by (intros H1; apply nonpar; rewrite E, H1; ring). field. split; assumption.
Qed.
End Rot.

Definition rmat (b1 b2 k : R) : m3 :=
  mkM (mkV (1 - k * (b1 * b1)) (- (k * (b1 * b2))) b1) (mkV (- (k * (b1 * b2))) (1 - k * (b2 * b2)) b2) (mkV (- b1) (- b2) (1 - k * (b1 * b1 + b2 * b2))).

Lemma rot_mat_form t : let b := vscale (/ vnorm t) t in (vx t <> 0 \/ vy t <> 0) ->
  dot b b = 1 /\ 1 + vz b <> 0 /\ rot_mat t = rmat (vx b) (vy b) (/ (1 + vz b)).
Proof.
  intros b Hn. assert (Hp : 0 < dot t t) by (unfold dot; destruct Hn; nra).
  assert (Hs : 0 < vnorm t) by (apply sqrt_lt_R0; exact Hp).
  assert (Hsq : vnorm t * vnorm t = dot t t) by (apply sqrt_sqrt; lra).
  assert (Hu : dot b b = 1).
  { unfold b, vscale, dot. cbn. replace (/ vnorm t * vx t * (/ vnorm t * vx t) + / vnorm t * vy t * (/ vnorm t * vy t) + / vnorm t * vz t * (/ vnorm t * vz t)) with (dot t t / (vnorm t * vnorm t)) by (unfold dot; field; lra).
    rewrite Hsq. field. lra. }
  assert (Hne : vx b * vx b + vy b * vy b <> 0).
  { unfold b, vscale. cbn. intros H. assert (Hi : / vnorm t <> 0) by (apply Rinv_neq_0_compat; lra).
    assert (vx t * vx t + vy t * vy t = 0) by (apply (Rmult_eq_reg_l (/ vnorm t * / vnorm t)); [rewrite Rmult_0_r; rewrite <- H; ring | apply Rmult_integral_contrapositive; split; assumption]).
    destruct Hn; nra. }
  split; [exact Hu|]. unfold dot in Hu. split; [apply (b3_ne (vx b) (vy b)); assumption|].
  unfold rot_mat. fold b. set (b1 := vx b) in *. set (b2 := vy b) in *. set (b3 := vz b) in *.
  assert (Ev : cross zaxis b = mkV (- b2) b1 0) by (unfold cross, zaxis; cbn; fold b1 b2 b3; f_equal; ring).
  rewrite Ev. assert (Ec : dot zaxis b = b3) by (unfold dot, zaxis; cbn; fold b1 b2 b3; ring). rewrite Ec.
  assert (Es : vnorm (mkV (- b2) b1 0) * vnorm (mkV (- b2) b1 0) = b1 * b1 + b2 * b2).
  { unfold vnorm. rewrite sqrt_sqrt; [unfold dot; cbn; ring | unfold dot; cbn; nra]. }
  rewrite Es, coef by assumption. unfold rmat, madd3, mscale3, mmul3, mrow_mul, mcol, eye3, vplus, vscale, dot. cbn. f_equal; f_equal; ring.
Qed.

Lemma rmat_isometry b1 b2 b3 p q : b1 * b1 + b2 * b2 + b3 * b3 = 1 -> 1 + b3 <> 0 ->
  dot (mvec3 (rmat b1 b2 (/ (1 + b3))) p) (mvec3 (rmat b1 b2 (/ (1 + b3))) q) = dot p q.
Proof.
  intros Hu Hb. set (k := / (1 + b3)). assert (Hk : k * (1 + b3) = 1) by (unfold k; field; exact Hb).
  assert (Hkk : k * (b1 * b1 + b2 * b2) = 1 - b3). { replace (b1 * b1 + b2 * b2) with ((1 + b3) * (1 - b3)) by nra. rewrite <- Rmult_assoc, Hk. ring. }
  assert (E3 : rmat b1 b2 k = mkM (mkV (1 - k * (b1 * b1)) (- (k * (b1 * b2))) b1) (mkV (- (k * (b1 * b2))) (1 - k * (b2 * b2)) b2) (mkV (- b1) (- b2) b3)).
  { unfold rmat. rewrite Hkk. replace (1 - (1 - b3)) with b3 by ring. reflexivity. }
  rewrite E3. unfold mvec3, dot. cbn. destruct p as [p1 p2 p3], q as [q1 q2 q3]. cbn.
  (* orthonormal columns *)
  assert (C11 : (1 - k * (b1 * b1)) * (1 - k * (b1 * b1)) + k * (b1 * b2) * (k * (b1 * b2)) + b1 * b1 = 1).
  { replace ((1 - k * (b1 * b1)) * (1 - k * (b1 * b1)) + k * (b1 * b2) * (k * (b1 * b2)) + b1 * b1) with (1 + b1 * b1 * (1 - 2 * k + k * (k * (b1 * b1 + b2 * b2)))) by ring.
    rewrite Hkk. replace (1 - 2 * k + k * (1 - b3)) with (1 - k * (1 + b3)) by ring. rewrite Hk. ring. }
  assert (C22 : k * (b1 * b2) * (k * (b1 * b2)) + (1 - k * (b2 * b2)) * (1 - k * (b2 * b2)) + b2 * b2 = 1).
  { replace (k * (b1 * b2) * (k * (b1 * b2)) + (1 - k * (b2 * b2)) * (1 - k * (b2 * b2)) + b2 * b2) with (1 + b2 * b2 * (1 - 2 * k + k * (k * (b1 * b1 + b2 * b2)))) by ring.
    rewrite Hkk. replace (1 - 2 * k + k * (1 - b3)) with (1 - k * (1 + b3)) by ring. rewrite Hk. ring. }
  assert (C12 : (1 - k * (b1 * b1)) * (- (k * (b1 * b2))) + (- (k * (b1 * b2))) * (1 - k * (b2 * b2)) + b1 * b2 = 0).
  { replace ((1 - k * (b1 * b1)) * (- (k * (b1 * b2))) + (- (k * (b1 * b2))) * (1 - k * (b2 * b2)) + b1 * b2) with (b1 * b2 * (1 - 2 * k + k * (k * (b1 * b1 + b2 * b2)))) by ring.
    rewrite Hkk. replace (1 - 2 * k + k * (1 - b3)) with (1 - k * (1 + b3)) by ring. rewrite Hk. ring. }
  assert (C13 : (1 - k * (b1 * b1)) * b1 + (- (k * (b1 * b2))) * b2 - b1 * b3 = 0).
  { replace ((1 - k * (b1 * b1)) * b1 + (- (k * (b1 * b2))) * b2 - b1 * b3) with (b1 * (1 - k * (b1 * b1 + b2 * b2) - b3)) by ring. rewrite Hkk. ring. }
  assert (C23 : (- (k * (b1 * b2))) * b1 + (1 - k * (b2 * b2)) * b2 - b2 * b3 = 0).
  { replace ((- (k * (b1 * b2))) * b1 + (1 - k * (b2 * b2)) * b2 - b2 * b3) with (b2 * (1 - k * (b1 * b1 + b2 * b2) - b3)) by ring. rewrite Hkk. ring. }
  transitivity (p1 * q1 * ((1 - k * (b1 * b1)) * (1 - k * (b1 * b1)) + k * (b1 * b2) * (k * (b1 * b2)) + b1 * b1) +
    p2 * q2 * (k * (b1 * b2) * (k * (b1 * b2)) + (1 - k * (b2 * b2)) * (1 - k * (b2 * b2)) + b2 * b2) +
    p3 * q3 * (b1 * b1 + b2 * b2 + b3 * b3) +
    (p1 * q2 + p2 * q1) * ((1 - k * (b1 * b1)) * (- (k * (b1 * b2))) + (- (k * (b1 * b2))) * (1 - k * (b2 * b2)) + b1 * b2) +
    (p1 * q3 + p3 * q1) * ((1 - k * (b1 * b1)) * b1 + (- (k * (b1 * b2))) * b2 - b1 * b3) +
    (p2 * q3 + p3 * q2) * ((- (k * (b1 * b2))) * b1 + (1 - k * (b2 * b2)) * b2 - b2 * b3)); [ring|].
  rewrite C11, C22, C12, C13, C23, Hu. ring.
Qed.
Lemma mvec3_sub m p q : mvec3 m (vsub p q) = vsub (mvec3 m p) (mvec3 m q).
Proof. unfold mvec3, vsub, dot. cbn. f_equal; ring. Qed.
