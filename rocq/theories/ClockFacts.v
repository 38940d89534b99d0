(** Lemmas on rounding and on the inference of sampling frequencies. *)
From Verif Require Import Base BaseFacts Clock ClockSpec.
From Coq Require Import Reals Lra Psatz.
Local Open Scope R_scope.

Lemma abs_le_inv x a : Rabs x <= a -> - a <= x <= a.
Proof. unfold Rabs. destruct (Rcase_abs x); lra. Qed.
Lemma floor_bounds x : IZR (floor x) <= x < IZR (floor x) + 1.
Proof. unfold floor. pose proof (base_Int_part x). lra. Qed.
Lemma floor_unique x z : IZR z <= x < IZR z + 1 -> floor x = z.
Proof.
  intros H. pose proof (floor_bounds x) as F. assert (A : IZR z < IZR (floor x + 1)) by (rewrite plus_IZR; lra). assert (B : IZR (floor x) < IZR (z + 1)) by (rewrite plus_IZR; lra).
  apply lt_IZR in A, B. lia.
Qed.
Lemma floor_IZR z : floor (IZR z) = z.
Proof. apply floor_unique. lra. Qed.
Lemma ceil_bounds x : x <= IZR (ceil x) < x + 1.
Proof. unfold ceil. rewrite opp_IZR. pose proof (floor_bounds (- x)). lra. Qed.
Lemma ceil_unique x z : IZR z - 1 < x <= IZR z -> ceil x = z.
Proof. intros H. unfold ceil. rewrite (floor_unique (- x) (- z)); [lia|]. rewrite opp_IZR. lra. Qed.

Lemma rint_err x : Rabs (IZR (rint x) - x) <= 1 / 2.
Proof.
  unfold rint. pose proof (floor_bounds x) as F. set (f := floor x) in *. apply Rabs_le.
  destruct (Rlt_dec (x - IZR f) (1 / 2)); [lra|]. destruct (Rlt_dec (1 / 2) (x - IZR f)); [rewrite plus_IZR; lra|]. destruct (Z.even f); rewrite ?plus_IZR; lra.
Qed.
Lemma rint_unique x z : IZR z - 1 / 2 < x < IZR z + 1 / 2 -> rint x = z.
Proof.
  intros H. pose proof (rint_err x) as E. apply abs_le_inv in E. 
  assert (A : IZR (rint x) < IZR (z + 1)) by (rewrite plus_IZR; lra). assert (B : IZR z < IZR (rint x + 1)) by (rewrite plus_IZR; lra). apply lt_IZR in A, B. lia.
Qed.
Lemma pow10_pos p : 0 < 10 ^ p.
Proof. apply pow_lt. lra. Qed.
Lemma np_round_err p x : Rabs (np_round p x - x) <= 1 / 2 / 10 ^ p.
Proof.
  unfold np_round. pose proof (pow10_pos p). replace (IZR (rint (x * 10 ^ p)) / 10 ^ p - x) with ((IZR (rint (x * 10 ^ p)) - x * 10 ^ p) / 10 ^ p) by (field; lra).
  unfold Rdiv at 1. rewrite Rabs_mult, (Rabs_right (/ 10 ^ p)) by (left; now apply Rinv_0_lt_compat). apply Rmult_le_compat_r; [left; now apply Rinv_0_lt_compat|apply rint_err].
Qed.
Lemma np_round_unique p x z : IZR z - 1 / 2 < x * 10 ^ p < IZR z + 1 / 2 -> np_round p x = IZR z / 10 ^ p.
Proof. intros H. unfold np_round. now rewrite (rint_unique _ z). Qed.

(** * Differences *)
Lemma diff_length t : length (diff t) = (length t - 1)%nat.
Proof. unfold diff. rewrite map_length, combine_length. destruct t; [reflexivity|cbn [tl length]; lia]. Qed.
Lemma diff_nth t i : (S i < length t)%nat -> nth i (diff t) 0 = interval t i.
Proof.
  revert i. induction t as [|a t IH]; intros i H; [cbn in H; lia|]. destruct t as [|b t]; [cbn in H; lia|].
  change (diff (a :: b :: t)) with ((b - a) :: diff (b :: t)). destruct i as [|i]; [reflexivity|]. cbn [nth]. rewrite IH by (cbn in *; lia). reflexivity.
Qed.
Lemma sum_diff t : (1 <= length t)%nat -> sum (diff t) = nth (length t - 1) t 0 - nth 0 t 0.
Proof.
  induction t as [|a t IH]; intros H; [cbn in H; lia|]. destruct t as [|b t]; [cbn; ring|].
  change (diff (a :: b :: t)) with ((b - a) :: diff (b :: t)). change (sum ((b - a) :: diff (b :: t))) with (b - a + sum (diff (b :: t))). rewrite IH by (cbn; lia).
  replace (length (a :: b :: t) - 1)%nat with (S (length (b :: t) - 1)) by (cbn; lia). cbn [nth]. ring.
Qed.
Lemma mean_diff t : (1 <= length t)%nat -> mean (diff t) = average_interval t.
Proof. intros H. unfold mean, average_interval. now rewrite sum_diff, diff_length. Qed.

(** * Precision: the unit of rounding is between 1/100000 and 1/10000 of the mean *)
Lemma ln10_pos : 0 < ln 10.
Proof. rewrite <- ln_1. apply ln_increasing; lra. Qed.
Lemma ln_pow10 p : ln (10 ^ p) = INR p * ln 10.
Proof. apply ln_pow. lra. Qed.

Lemma precision_spec ds : 0 < mean ds < 10 ^ 4 -> mean ds / 10 ^ 5 < / 10 ^ (precision ds) <= mean ds / 10 ^ 4.
Proof.
  intros H. unfold precision. set (x := mean ds / 10 ^ 4). set (c := ceil (Rabs (log10 x))).
  assert (P4 : 0 < 10 ^ 4) by apply pow10_pos. assert (Hx : 0 < x < 1).
  { unfold x. split; [apply Rdiv_lt_0_compat; lra|]. apply Rmult_lt_reg_r with (10 ^ 4); [exact P4|]. unfold Rdiv. rewrite Rmult_assoc, Rinv_l by lra. lra. }
  pose proof ln10_pos as L. assert (Lx : ln x < 0) by (rewrite <- ln_1; apply ln_increasing; lra).
  assert (Hl : log10 x < 0) by (unfold log10, Rdiv; pose proof (Rinv_0_lt_compat _ L) as IL; pose proof (Rmult_lt_compat_r _ _ _ IL Lx); lra).
  assert (C : Rabs (log10 x) <= IZR c < Rabs (log10 x) + 1) by apply ceil_bounds. rewrite Rabs_left in C by exact Hl.
  assert (Hc : (0 <= c)%Z) by (apply le_IZR; lra). assert (EI : INR (Z.to_nat c) = IZR c) by (rewrite INR_IZR_INZ, Z2Nat.id by exact Hc; reflexivity).
  set (p := Z.to_nat c) in *. rewrite <- EI in C. 
  assert (E : log10 x * ln 10 = ln x) by (unfold log10; field; lra).
  pose proof (pow10_pos p) as Pp. assert (Lp : ln (/ 10 ^ p) = - (INR p * ln 10)) by (rewrite ln_Rinv by exact Pp; now rewrite ln_pow10).
  split.
  - replace (mean ds / 10 ^ 5) with (x / 10) by (unfold x; field). apply ln_lt_inv; [lra|now apply Rinv_0_lt_compat|]. rewrite Lp. unfold Rdiv. rewrite ln_mult, ln_Rinv by lra. rewrite <- E.
    assert (INR p * ln 10 < (- log10 x + 1) * ln 10) by (apply Rmult_lt_compat_r; lra). lra.
  - change (mean ds / 10 ^ 4) with x. apply Rnot_lt_le. intros Hlt. apply ln_increasing in Hlt; [|lra]. rewrite Lp, <- E in Hlt.
    assert ((- log10 x) * ln 10 <= INR p * ln 10) by (apply Rmult_le_compat_r; lra). lra.
Qed.

Lemma precision_unique ds p : / 10 ^ p <= mean ds / 10 ^ 4 -> mean ds / 10 ^ 5 < / 10 ^ p -> mean ds < 10 ^ 4 -> precision ds = p.
Proof.
  intros H1 H2 H3. pose proof (pow10_pos p) as Pp. pose proof (Rinv_0_lt_compat _ Pp) as Ip. assert (H0 : 0 < mean ds) by (assert (0 < mean ds / 10 ^ 4) by lra; apply Rmult_lt_reg_r with (/ 10 ^ 4); [apply Rinv_0_lt_compat, pow10_pos|unfold Rdiv in *; lra]).
  destruct (precision_spec ds ltac:(lra)) as [P1 P2]. set (q := precision ds) in *. pose proof (pow10_pos q) as Pq.
  assert (R : forall a b, / 10 ^ a <= mean ds / 10 ^ 4 -> mean ds / 10 ^ 5 < / 10 ^ b -> (b <= a)%nat).
  { intros a b Ha Hb. apply Nat.nlt_ge. intros Hab. assert (10 ^ S a <= 10 ^ b) by (apply Rle_pow; [lra|lia]). pose proof (pow10_pos a). pose proof (pow10_pos (S a)).
    assert (/ 10 ^ b <= / 10 ^ S a) by (apply Rinv_le_contravar; assumption). assert (E : / 10 ^ S a = / 10 ^ a / 10) by (cbn [pow]; field; lra). 
    assert (mean ds / 10 ^ 5 = mean ds / 10 ^ 4 / 10) by field. lra. }
  apply Nat.le_antisymm; apply R; assumption.
Qed.

(** * Inference *)
Lemma infer_ok t fs : infer_fs t = Ok fs -> (2 <= length t)%nat /\ 0 < average_interval t /\ exists r,
  (forall i, (S i < length t)%nat -> np_round (precision (diff t)) (interval t i) = r) /\ fs = np_round 3 (1 / r).
Proof.
  unfold infer_fs. pose proof (diff_length t) as L. destruct (diff t) as [|d ds] eqn:E; [discriminate|]. intros H.
  assert (L2 : (2 <= length t)%nat) by (cbn in L; lia). split; [exact L2|]. assert (M : mean (d :: ds) = average_interval t) by (rewrite <- E; apply mean_diff; lia). rewrite M in H. destruct (Rle_dec (average_interval t) 0) as [|Hn]; [discriminate|].
  split; [lra|]. destruct (forallb _ ds) eqn:F; [|discriminate]. injection H as <-. exists (np_round (precision (d :: ds)) d). split; [|reflexivity].
  intros i Hi. rewrite <- (diff_nth t i Hi), E. destruct i as [|i]; [reflexivity|]. cbn [nth]. rewrite forallb_forall in F.
  specialize (F (nth i ds 0)). destruct (Req_EM_T _ _) as [Q|]; [exact Q|]. assert (false = true); [|discriminate]. apply F, nth_In. cbn in L. lia.
Qed.
Lemma infer_uniform t r : (2 <= length t)%nat -> 0 < average_interval t -> (forall i, (S i < length t)%nat -> np_round (precision (diff t)) (interval t i) = r) -> infer_fs t = Ok (np_round 3 (1 / r)).
Proof.
  intros L2 Ha H. unfold infer_fs. pose proof (diff_length t) as L. destruct (diff t) as [|d ds] eqn:E; [cbn in L; lia|]. assert (M : mean (d :: ds) = average_interval t) by (rewrite <- E; apply mean_diff; lia). rewrite M.
  destruct (Rle_dec (average_interval t) 0); [lra|].
  assert (N : forall i, (S i < length t)%nat -> np_round (precision (d :: ds)) (nth i (d :: ds) 0) = r) by (intros i Hi; rewrite <- E, diff_nth by exact Hi; rewrite E; now apply H).
  pose proof (N 0%nat ltac:(lia)) as N0. cbn [nth] in N0. rewrite N0.
  rewrite (proj2 (forallb_forall _ ds)); [reflexivity|]. intros x Hx. apply (In_nth _ _ 0) in Hx. destruct Hx as (j & Hj & <-).
  specialize (N (S j)). cbn [nth] in N. rewrite N by (cbn in L; lia). destruct (Req_EM_T r r); [reflexivity|congruence].
Qed.

Lemma stamps_length f n : length (stamps f n) = n.
Proof. unfold stamps. now rewrite map_length, seq_length. Qed.
Lemma stamps_nth f n i : (i < n)%nat -> nth i (stamps f n) 0 = INR i / f.
Proof.
  intros H. unfold stamps. set (F := fun i => INR i / f). rewrite (nth_indep _ 0 (F 0%nat)) by (rewrite map_length, seq_length; exact H). now rewrite map_nth, seq_nth by exact H.
Qed.
Lemma stamps_interval f n i : 0 < f -> (S i < n)%nat -> interval (stamps f n) i = 1 / f.
Proof. intros Hf H. unfold interval. rewrite !stamps_nth, S_INR by lia. field. lra. Qed.
Lemma stamps_average f n : 0 < f -> (2 <= n)%nat -> average_interval (stamps f n) = 1 / f.
Proof.
  intros Hf H. unfold average_interval. rewrite stamps_length, !stamps_nth by lia. assert (0 < INR (n - 1)) by (apply lt_0_INR; lia). cbn [INR]. field. lra.
Qed.
Lemma stamps_infer f n p : 0 < f -> (2 <= n)%nat -> precision (diff (stamps f n)) = p -> infer_fs (stamps f n) = Ok (np_round 3 (1 / np_round p (1 / f))).
Proof.
  intros Hf Hn Hp. apply infer_uniform; [now rewrite stamps_length|rewrite stamps_average by assumption; apply Rdiv_lt_0_compat; lra|].
  intros i Hi. rewrite stamps_length in Hi. rewrite stamps_interval, Hp by assumption. reflexivity.
Qed.
(** [p] with 10^p / 10^5 < f <= 10^p / 10^4 *)
Lemma stamps_precision f n p : 0 < f -> (2 <= n)%nat -> 10 ^ p / 10 ^ 5 < f <= 10 ^ p / 10 ^ 4 -> / 10 ^ 4 < f -> precision (diff (stamps f n)) = p.
Proof.
  intros Hf Hn [A B] C. pose proof (pow10_pos p) as Pp. pose proof (pow10_pos 4) as P4. pose proof (pow10_pos 5) as P5.
  apply precision_unique; rewrite mean_diff, stamps_average by (rewrite ?stamps_length; lia || lra).
  - apply Rmult_le_reg_r with (f * 10 ^ 4 * 10 ^ p); [repeat apply Rmult_lt_0_compat; lra|]. replace (/ 10 ^ p * (f * 10 ^ 4 * 10 ^ p)) with (f * 10 ^ 4) by (field; lra).
    replace (1 / f / 10 ^ 4 * (f * 10 ^ 4 * 10 ^ p)) with (10 ^ p) by (field; lra). apply (Rmult_le_compat_r (10 ^ 4)) in B; [|lra]. replace (10 ^ p / 10 ^ 4 * 10 ^ 4) with (10 ^ p) in B by (field; lra). exact B.
  - apply Rmult_lt_reg_r with (f * 10 ^ 5 * 10 ^ p); [repeat apply Rmult_lt_0_compat; lra|]. replace (/ 10 ^ p * (f * 10 ^ 5 * 10 ^ p)) with (f * 10 ^ 5) by (field; lra).
    replace (1 / f / 10 ^ 5 * (f * 10 ^ 5 * 10 ^ p)) with (10 ^ p) by (field; lra). apply (Rmult_lt_compat_r (10 ^ 5)) in A; [|lra]. replace (10 ^ p / 10 ^ 5 * 10 ^ 5) with (10 ^ p) in A by (field; lra). exact A.
  - apply Rmult_lt_reg_r with f; [lra|]. replace (1 / f * f) with 1 by (field; lra). apply (Rmult_lt_compat_r (10 ^ 4)) in C; [|lra]. rewrite Rinv_l in C by lra. lra.
Qed.

(** Rounding *)
Lemma rint_spec x n : rint x = n <-> Rabs (IZR n - x) < 1 / 2 \/ (Rabs (IZR n - x) = 1 / 2 /\ Z.even n = true).
Proof.
  assert (A : Rabs (IZR (rint x) - x) < 1 / 2 \/ (Rabs (IZR (rint x) - x) = 1 / 2 /\ Z.even (rint x) = true)).
  { unfold rint. pose proof (floor_bounds x) as B. destruct (Rlt_dec _ _) as [L|L]; [left; apply Rabs_def1; lra|]. destruct (Rlt_dec _ _) as [M|M]; [left; rewrite plus_IZR; apply Rabs_def1; lra|].
    right. assert (E : x = IZR (floor x) + 1 / 2) by lra. destruct (Z.even (floor x)) eqn:V.
    - split; [|exact V]. replace (IZR (floor x) - x) with (- (1 / 2)) by lra. rewrite Rabs_Ropp, Rabs_right; lra.
    - split; [|rewrite Z.even_add, V; reflexivity]. rewrite plus_IZR. replace (IZR (floor x) + 1 - x) with (1 / 2) by lra. rewrite Rabs_right; lra. }
  split; [intros <-; exact A|]. intros H.
  assert (D : Rabs (IZR (rint x) - IZR n) <= Rabs (IZR (rint x) - x) + Rabs (IZR n - x)).
  { replace (IZR (rint x) - IZR n) with ((IZR (rint x) - x) + - (IZR n - x)) by ring. eapply Rle_trans; [apply Rabs_triang|]. rewrite Rabs_Ropp. lra. }
  destruct (Z.eq_dec (rint x) n) as [|Hne]; [assumption|exfalso].
  assert (G : 1 <= Rabs (IZR (rint x) - IZR n)). { rewrite <- minus_IZR, <- abs_IZR. apply IZR_le. lia. }
  destruct A as [A|[A1 A2]]; [destruct H as [H|[H1 H2]]; lra|]. destruct H as [H|[H1 H2]]; [lra|].
  assert (Q : Z.abs (rint x - n) = 1%Z). { assert (IZR (Z.abs (rint x - n)) <= 1) by (rewrite abs_IZR, minus_IZR; lra). apply le_IZR in H. lia. }
  apply Zeven_bool_iff in A2, H2. destruct (Zeven_ex _ A2) as [a Ha], (Zeven_ex _ H2) as [b Hb]. lia.
Qed.

(** Checks of the time stamps *)
Lemma mapM_Forall2 {A B} (f : A -> res B) l r : mapM f l = Ok r <-> Forall2 (fun a b => f a = Ok b) l r.
Proof.
  split.
  - revert r. induction l as [|a l IH]; cbn [mapM]; intros r H; [injection H as <-; constructor|]. apply bind_ok in H. destruct H as (b & Hb & H). apply bind_ok in H. destruct H as (bs & Hbs & H). injection H as <-. constructor; auto.
  - induction 1 as [|a b l r H F IH]; [reflexivity|]. cbn [mapM]. rewrite H. cbn [bind]. now rewrite IH.
Qed.
Lemma F2_length {A B} (P : A -> B -> Prop) l r : Forall2 P l r -> length l = length r.
Proof. induction 1; cbn; congruence. Qed.
Lemma shortfat_id cols : (length cols <= length (nth 0 cols []))%nat -> ensure_shortfat cols = cols.
Proof. intros H. unfold ensure_shortfat. destruct (Nat.ltb_spec (length (nth 0 cols [])) (length cols)); [lia|reflexivity]. Qed.
Lemma checks_iff ref cols : (length cols <= length (nth 0 cols []))%nat -> (ref < length cols)%nat ->
  forall fs, base_event_checks true ref cols = Ok (cols, fs) <->
    Forall2 (fun c f => infer_fs c = Ok f) cols fs /\ forall i j, (i < length cols)%nat -> (j < length cols)%nat -> nth i fs 0 = nth j fs 0.
Proof.
  intros H Hr fs. unfold base_event_checks. rewrite (shortfat_id cols H). split.
  - intros E. apply bind_ok in E. destruct E as (fs' & M & E). apply bind_ok in E. destruct E as (f0 & G & E). destruct (forallb _ _) eqn:B; [|discriminate]. injection E as <-.
    apply mapM_Forall2 in M. split; [exact M|]. pose proof (F2_length _ _ _ M) as L. rewrite forallb_forall in B.
    assert (P : forall i, (i < length cols)%nat -> nth i fs' 0 = f0). { intros i Hi. specialize (B (nth i fs' 0) (nth_In (n:=i) fs' 0 ltac:(lia))). now destruct (Req_EM_T _ _). }
    intros i j Hi Hj. rewrite (P i Hi). symmetry. now apply P.
  - intros [M P]. pose proof (F2_length _ _ _ M) as L. apply mapM_Forall2 in M. rewrite M. cbn [bind]. unfold get. rewrite (nth_error_nth' fs 0) by lia. cbn [bind].
    rewrite (proj2 (forallb_forall _ fs)); [reflexivity|]. intros f Hf. destruct (In_nth fs f 0 Hf) as (i & Hi & <-). destruct (Req_EM_T _ _) as [|N]; [reflexivity|]. exfalso. apply N. apply P; lia.
Qed.
Lemma checks_refuse ref cols fs i j : (length cols <= length (nth 0 cols []))%nat -> (ref < length cols)%nat ->
  Forall2 (fun c f => infer_fs c = Ok f) cols fs -> (i < length cols)%nat -> (j < length cols)%nat -> nth i fs 0 <> nth j fs 0 ->
  base_event_checks true ref cols = Err ValueError /\ base_event_checks false ref cols = Ok (cols, fs).
Proof.
  intros H Hr F Hi Hj N. pose proof (F2_length _ _ _ F) as L. unfold base_event_checks. rewrite (shortfat_id cols H). rewrite (proj2 (mapM_Forall2 _ _ _) F). cbn [bind].
  split; [|reflexivity]. unfold get. rewrite (nth_error_nth' fs 0) by lia. cbn [bind]. destruct (forallb _ _) eqn:B; [|reflexivity]. exfalso. apply N. rewrite forallb_forall in B.
  assert (P : forall i, (i < length cols)%nat -> nth i fs 0 = nth ref fs 0). { intros a Ha. specialize (B (nth a fs 0) (nth_In (n:=a) fs 0 ltac:(lia))). now destruct (Req_EM_T _ _). }
  now rewrite (P i Hi), (P j Hj).
Qed.
Lemma checks_ref ref cols fs : (length cols <= length (nth 0 cols []))%nat -> (length cols <= ref)%nat ->
  Forall2 (fun c f => infer_fs c = Ok f) cols fs -> base_event_checks true ref cols = Err IndexError.
Proof.
  intros H Hr F. pose proof (F2_length _ _ _ F) as L. unfold base_event_checks. rewrite (shortfat_id cols H). rewrite (proj2 (mapM_Forall2 _ _ _) F). cbn [bind]. unfold get.
  now rewrite (proj2 (nth_error_None fs ref)) by lia.
Qed.
