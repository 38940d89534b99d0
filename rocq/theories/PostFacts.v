(** Proofs about metric chunks and 16-bit conversion. *)
From Verif Require Import Base BaseFacts Post.
From Coq Require Import QArith Qround Qabs Lqa.
Local Open Scope Z_scope.

Lemma py_int_nonneg q : (0 <= q)%Q -> py_int q = Qfloor q.
Proof. intros H. unfold py_int. apply Qle_bool_iff in H. rewrite H. reflexivity. Qed.
Lemma qfloor_spec q z : Qfloor q = z <-> (inject_Z z <= q < inject_Z (z + 1))%Q.
Proof.
  split.
  - intros <-. split; [apply Qfloor_le | apply Qlt_floor].
  - intros [H1 H2]. pose proof (Qfloor_le q) as H3. pose proof (Qlt_floor q) as H4.
    assert (A : (inject_Z z < inject_Z (Qfloor q + 1))%Q) by lra. assert (B : (inject_Z (Qfloor q) < inject_Z (z + 1))%Q) by lra. rewrite <- Zlt_Qlt in A, B. lia.
Qed.
Lemma qfloor_ge q z : z <= Qfloor q <-> (inject_Z z <= q)%Q.
Proof.
  split.
  - intros H. apply Qle_trans with (inject_Z (Qfloor q)); [rewrite <- Zle_Qle; exact H | apply Qfloor_le].
  - intros H. pose proof (Qlt_floor q) as H4. assert (A : (inject_Z z < inject_Z (Qfloor q + 1))%Q) by lra. rewrite <- Zlt_Qlt in A. lia.
Qed.
Section Loop.
Context (len N : Z) (step : Q) (n : Z) (Hs : (0 < step)%Q) (Hn : 0 <= n).
Definition start (c : Z) : Z := Qfloor (inject_Z c * step).
Lemma start_int c : 0 <= c -> py_int (inject_Z c * step) = start c.
Proof. intros H. apply py_int_nonneg. apply Qmult_le_0_compat; [change 0%Q with (inject_Z 0); rewrite <- Zle_Qle; exact H | lra]. Qed.
Lemma start_mono c d : c <= d -> start c <= start d.
Proof. intros H. apply Qfloor_resp_le. apply Qmult_le_compat_r; [rewrite <- Zle_Qle; exact H | lra]. Qed.
(** the loop, with enough fuel: success, or a failure to store *)
Lemma dyn_loop_spec fuel : forall c, 0 <= c <= n -> (Z.to_nat (n - c) < fuel)%nat ->
  (exists m, 0 <= m /\ c + m <= n /\ dyn_loop fuel len N step n c = Ok (map (fun i => (start (c + Z.of_nat i), start (c + Z.of_nat i) + N)) (seq 0 (Z.to_nat m)))
     /\ (forall i, 0 <= i < m -> start (c + i) + N <= len) /\ len < start (c + m) + N)
  \/ (dyn_loop fuel len N step n c = Err IndexError /\ start n + N <= len).
Proof.
  induction fuel as [|fuel IH]; intros c Hc Hf; [lia|]. cbn [dyn_loop]. rewrite start_int by lia. destruct (start c + N >? len) eqn:E.
  - left. exists 0. split; [lia|]. split; [lia|]. split; [reflexivity|]. split; [lia|]. rewrite Z.add_0_r. lia.
  - destruct (n <=? c) eqn:En; [right; split; [reflexivity|]; assert (c = n) by lia; subst; lia|].
    destruct (c + 1 >? 2 * n) eqn:E2; [lia|].
    destruct (IH (c + 1)) as [(m & Hm & Hcm & Hr & Hin & Hlast)|[Hr Hl]]; [lia | lia | |].
    + left. exists (m + 1). split; [lia|]. split; [lia|]. rewrite Hr. cbn [bind]. split; [|split].
      * f_equal. replace (Z.to_nat (m + 1)) with (S (Z.to_nat m)) by lia. cbn [seq map]. f_equal; [rewrite Z.add_0_r; reflexivity|]. rewrite <- seq_shift, map_map. apply map_ext. intros i. replace (c + 1 + Z.of_nat i) with (c + Z.of_nat (S i)) by lia. reflexivity.
      * intros i Hi. destruct (Z.eq_dec i 0) as [->|Hne]; [rewrite Z.add_0_r; lia|]. replace (c + i) with (c + 1 + (i - 1)) by lia. apply Hin. lia.
      * replace (c + (m + 1)) with (c + 1 + m) by lia. exact Hlast.
    + right. rewrite Hr. split; [reflexivity | exact Hl].
Qed.
End Loop.

Lemma iz_pos z : 0 < z -> (0 < inject_Z z)%Q.
Proof. intros H. change 0%Q with (inject_Z 0). rewrite <- Zlt_Qlt. exact H. Qed.
Lemma dyn_chunks_cases len N o : 0 < N -> 0 <= len ->
  let step := (inject_Z N * (1 - o))%Q in
  (o == 1 /\ dyn_chunks len N o = Err ZeroDivisionError)%Q
  \/ ((1 < o)%Q /\ (dyn_chunks len N o = Err ValueError \/ (len = 0 /\ dyn_chunks len N o = Ok [])))
  \/ ((o < 1)%Q /\ (0 < step)%Q /\ exists n, n = Qfloor (inject_Z len / step) /\ 0 <= n /\ dyn_chunks len N o = dyn_loop (S (Z.to_nat n)) len N step n 0).
Proof.
  intros HN Hl step. unfold dyn_chunks. fold step. unfold n_chunks. pose proof (iz_pos N HN) as HN'.
  destruct (Qeq_bool step 0) eqn:E.
  - left. split; [|reflexivity]. apply Qeq_bool_iff in E. unfold step in E. destruct (Qmult_integral _ _ E) as [C|C]; [rewrite C in HN'; discriminate | lra].
  - apply Qeq_bool_neq in E. destruct (Qlt_le_dec 1 o) as [Ho|Ho].
    + right. left. split; [exact Ho|]. assert (Hs : (step < 0)%Q) by (unfold step; nra).
      destruct (Qfloor (inject_Z len / step) <? 0) eqn:En; [left; reflexivity|].
      assert (Hq : (0 <= inject_Z len / step)%Q) by (apply (qfloor_ge _ 0); lia).
      assert (Hl0 : len = 0).
      { assert (A : (inject_Z len == inject_Z len / step * step)%Q) by (field; exact E). assert (B : (inject_Z len <= 0)%Q) by nra. change 0%Q with (inject_Z 0) in B. rewrite <- Zle_Qle in B. lia. }
      right. split; [exact Hl0|]. subst len.
      assert (Hz : (inject_Z 0 / step == 0)%Q) by (field; exact E). rewrite Hz. cbn [bind]. change (Qfloor 0) with 0. assert (P0 : py_int (inject_Z 0 * step) = 0) by (rewrite py_int_nonneg; [apply qfloor_spec; split | ]; change (inject_Z 0) with 0%Q; change (inject_Z (0 + 1)) with 1%Q; lra). cbn [Z.to_nat dyn_loop Z.ltb Z.compare bind]. rewrite P0. replace (0 + N >? 0) with true by lia. reflexivity.
    + right. right. assert (Ho' : (o < 1)%Q) by (destruct (Qlt_le_dec o 1) as [C|C]; [exact C|]; exfalso; apply E; unfold step; setoid_replace o with 1%Q by lra; ring).
      split; [exact Ho'|]. assert (Hs : (0 < step)%Q) by (unfold step; nra). split; [exact Hs|]. exists (Qfloor (inject_Z len / step)). split; [reflexivity|].
      assert (H0 : 0 <= Qfloor (inject_Z len / step)).
      { apply qfloor_ge. apply Qle_shift_div_l; [exact Hs|]. change (inject_Z 0) with 0%Q. setoid_replace (0 * step)%Q with 0%Q by ring. change 0%Q with (inject_Z 0). rewrite <- Zle_Qle. exact Hl. }
      split; [exact H0|]. replace (Qfloor (inject_Z len / step) <? 0) with false by lia. reflexivity.
Qed.
Lemma dyn_chunks_ok len N o l : 0 < N -> 0 <= len -> (o < 1)%Q -> dyn_chunks len N o = Ok l ->
  let step := (inject_Z N * (1 - o))%Q in
  l = map (fun c => (Qfloor (inject_Z (Z.of_nat c) * step), Qfloor (inject_Z (Z.of_nat c) * step) + N)) (seq 0 (List.length l)) /\
  (forall i0 i1, In (i0, i1) l -> 0 <= i0 /\ i1 <= len) /\ len < Qfloor (inject_Z (Z.of_nat (List.length l)) * step) + N.
Proof.
  intros HN Hl Ho H step. destruct (dyn_chunks_cases len N o HN Hl) as [[C _]|[[C _]|(_ & Hs & n & En & Hn & E)]]; [lra | lra|]. fold step in Hs, En, E.
  rewrite E in H. destruct (dyn_loop_spec len N step n Hs (S (Z.to_nat n)) 0 ltac:(lia) ltac:(lia)) as [(m & Hm & Hcm & Hr & Hin & Hlast)|[Hr _]]; [|congruence].
  rewrite Hr in H. injection H as <-. rewrite map_length, seq_length. rewrite Z2Nat.id by lia. split; [reflexivity|]. split; [|exact Hlast].
  intros i0 i1 Hi. apply in_map_iff in Hi. destruct Hi as (i & Hi & Hs2). apply in_seq in Hs2. injection Hi as <- <-. split; [|apply Hin; lia].
  unfold start; rewrite ?Z.add_0_l. pose proof (start_mono step Hs 0 (Z.of_nat i) ltac:(lia)) as X. assert (S0 : start step 0 = 0) by (unfold start; apply qfloor_spec; change (inject_Z 0) with 0%Q; change (inject_Z (0 + 1)) with 1%Q; lra). unfold start in X, S0. lia.
Qed.
Lemma dyn_chunks_terminates len N o : 0 < N -> 0 <= len -> dyn_chunks len N o <> Err OutOfFuel.
Proof.
  intros HN Hl H. destruct (dyn_chunks_cases len N o HN Hl) as [[_ C]|[[_ [C|[_ C]]]|(_ & Hs & n & En & Hn & E)]]; try congruence. rewrite E in H.
  destruct (dyn_loop_spec len N _ n Hs (S (Z.to_nat n)) 0 ltac:(lia) ltac:(lia)) as [(m & Hm & Hcm & Hr & _)|[Hr _]]; congruence.
Qed.
Lemma dyn_chunks_succeeds len N o : 0 < N -> 0 <= len -> (0 <= o < 1)%Q -> ((exists z, inject_Z N * (1 - o) == inject_Z z)%Q \/ (1 <= inject_Z N * o)%Q) -> exists l, dyn_chunks len N o = Ok l.
Proof.
  intros HN Hl [Ho0 Ho1] Hc. destruct (dyn_chunks_cases len N o HN Hl) as [[C _]|[[C _]|(_ & Hs & n & En & Hn & E)]]; [lra | lra|]. pose proof (iz_pos N HN) as HN'.
  rewrite E. remember (inject_Z N * (1 - o))%Q as step eqn:Es.
  destruct (dyn_loop_spec len N step n Hs (S (Z.to_nat n)) 0 ltac:(lia) ltac:(lia)) as [(m & Hm & Hcm & Hr & _)|[Hr Hlast]]; [eexists; exact Hr|]. exfalso.
  assert (Hgt : (inject_Z len < inject_Z (n + 1) * step)%Q).
  { pose proof (Qlt_floor (inject_Z len / step)) as X. rewrite <- En in X. assert (A : (inject_Z len == inject_Z len / step * step)%Q) by (field; lra). rewrite A. apply Qmult_lt_compat_r; [exact Hs | exact X]. }
  assert (Hle : (inject_Z (start step n) + inject_Z N <= inject_Z len)%Q) by (rewrite <- inject_Z_plus, <- Zle_Qle; exact Hlast).
  rewrite inject_Z_plus in Hgt. change (inject_Z 1) with 1%Q in Hgt.
  assert (HsN : (step == inject_Z N - inject_Z N * o)%Q) by (rewrite Es; ring).
  destruct Hc as [[z Hz]|Hc].
  - assert (S1 : start step n = n * z) by (unfold start; rewrite Hz, <- inject_Z_mult; apply Qfloor_Z). rewrite S1, inject_Z_mult in Hle. rewrite <- Hz in Hle. assert (0 <= inject_Z N * o)%Q by nra. lra.
  - pose proof (Qlt_floor (inject_Z n * step)) as X. fold (start step n) in X. rewrite inject_Z_plus in X. change (inject_Z 1) with 1%Q in X. lra.
Qed.
Lemma floor_step step c : (0 < step)%Q -> (step - 1 < inject_Z (Qfloor (inject_Z (c + 1) * step) - Qfloor (inject_Z c * step)) < step + 1)%Q.
Proof.
  intros H. pose proof (Qfloor_le (inject_Z (c + 1) * step)) as A. pose proof (Qlt_floor (inject_Z (c + 1) * step)) as B. pose proof (Qfloor_le (inject_Z c * step)) as A'. pose proof (Qlt_floor (inject_Z c * step)) as B'.
  rewrite (inject_Z_plus (Qfloor _) 1) in B. rewrite (inject_Z_plus (Qfloor _) 1) in B'. change (inject_Z 1) with 1%Q in B, B'. unfold Z.sub. rewrite (inject_Z_plus (Qfloor _)), inject_Z_opp.
  assert (E : (inject_Z (c + 1) * step == inject_Z c * step + step)%Q) by (rewrite inject_Z_plus; change (inject_Z 1) with 1%Q; ring).
  set (p := (inject_Z (c + 1) * step)%Q) in *. set (q := (inject_Z c * step)%Q) in *. clearbody p q. split; lra.
Qed.
Lemma floor_step_int step c z : (step == inject_Z z)%Q -> Qfloor (inject_Z c * step) = c * z.
Proof. intros H. rewrite H, <- inject_Z_mult. apply Qfloor_Z. Qed.

(** ** 16 bits *)
Lemma qmax_fold r : forall a, let m := fold_left (fun m b => if Qle_bool m b then b else m) r a in (a <= m)%Q /\ (forall b, In b r -> (b <= m)%Q) /\ In m (a :: r).
Proof.
  induction r as [|b r IH]; intros a m; [split; [apply Qle_refl|]; split; [intros b [] | left; reflexivity]|].
  subst m. cbn [fold_left]. destruct (Qle_bool a b) eqn:E.
  - apply Qle_bool_iff in E. destruct (IH b) as (I1 & I2 & I3). split; [lra|]. split; [intros c [<-|Hc]; [exact I1 | apply I2; exact Hc]|]. right. exact I3.
  - assert (E' : (b < a)%Q) by (apply Qnot_le_lt; intros C; apply Qle_bool_iff in C; congruence). destruct (IH a) as (I1 & I2 & I3). split; [exact I1|]. split; [intros c [<-|Hc]; [lra | apply I2; exact Hc]|]. destruct I3 as [I3|I3]; [left; exact I3 | right; right; exact I3].
Qed.
Lemma qmax_spec x m : qmax x = Ok m -> In m x /\ forall b, In b x -> (b <= m)%Q.
Proof. destruct x as [|a r]; [discriminate|]. cbn [qmax]. intros H. injection H as <-. destruct (qmax_fold r a) as (I1 & I2 & I3). split; [exact I3|]. intros b [<-|Hb]; [exact I1 | apply I2; exact Hb]. Qed.
Lemma wrap_id z : -32768 <= z <= 32767 -> wrap16 z = z.
Proof. intros H. unfold wrap16. rewrite Z.mod_small by lia. lia. Qed.
Lemma py_int_spec q : (Qabs (inject_Z (py_int q)) <= Qabs q)%Q /\ (Qabs q < Qabs (inject_Z (py_int q)) + 1)%Q /\ ((0 <= q)%Q -> 0 <= py_int q) /\ ((q <= 0)%Q -> py_int q <= 0).
Proof.
  unfold py_int. destruct (Qle_bool 0 q) eqn:E.
  - apply Qle_bool_iff in E. pose proof (proj2 (qfloor_ge q 0) E) as H0. pose proof (Qfloor_le q) as H1. pose proof (Qlt_floor q) as H2. rewrite inject_Z_plus in H2. change (inject_Z 1) with 1%Q in H2.
    assert (H0' : (0 <= inject_Z (Qfloor q))%Q) by (change 0%Q with (inject_Z 0); rewrite <- Zle_Qle; exact H0).
    rewrite !Qabs_pos by assumption. split; [exact H1|]. split; [exact H2|]. split; [intros _; exact H0|]. intros H. assert (A : (inject_Z (Qfloor q) <= inject_Z 0)%Q) by (change (inject_Z 0) with 0%Q; lra). rewrite <- Zle_Qle in A. exact A.
  - assert (E' : (q < 0)%Q) by (apply Qnot_le_lt; intros C; apply Qle_bool_iff in C; congruence). clear E.
    pose proof (Qle_ceiling q) as H1. assert (H2 : (inject_Z (Qceiling q) - 1 < q)%Q) by (pose proof (Qceiling_lt q) as H2; unfold Z.sub in H2; rewrite inject_Z_plus in H2; exact H2).
    assert (H0 : Qceiling q <= 0). { assert (A : (inject_Z (Qceiling q) < inject_Z 1)%Q) by (change (inject_Z 1) with 1%Q; lra). rewrite <- Zlt_Qlt in A. lia. }
    assert (H0' : (inject_Z (Qceiling q) <= 0)%Q) by (change 0%Q with (inject_Z 0); rewrite <- Zle_Qle; exact H0).
    pose proof (Qabs_neg _ H0') as A1. assert (A2 : (Qabs q == - q)%Q) by (apply Qabs_neg; lra). rewrite A1, A2. split; [lra|]. split; [lra|]. split; [intros; exfalso; lra | intros _; exact H0].
Qed.
Lemma py_int_mono p q : (p <= q)%Q -> py_int p <= py_int q.
Proof.
  intros H. unfold py_int. destruct (Qle_bool 0 p) eqn:Ep.
  - apply Qle_bool_iff in Ep. assert (Eq : Qle_bool 0 q = true) by (apply Qle_bool_iff; lra). rewrite Eq. apply Qfloor_resp_le. exact H.
  - destruct (Qle_bool 0 q) eqn:Eq; [|apply Qceiling_resp_le; exact H]. pose proof (proj2 (proj2 (proj2 (py_int_spec p)))) as A. unfold py_int in A. rewrite Ep in A.
    apply Qle_bool_iff in Eq. pose proof (proj2 (qfloor_ge q 0) Eq). assert (p <= 0)%Q by (apply Qlt_le_weak, Qnot_le_lt; intros C; apply Qle_bool_iff in C; congruence). specialize (A H1). lia.
Qed.
Definition scaled (m a : Q) : Q := (inject_Z 32767 * a / m * (1 # 2))%Q.
Lemma scaled_range m a : (0 < m)%Q -> (- (2 * m) <= a <= m)%Q -> (-32767 # 1 <= scaled m a <= 32767 # 2)%Q.
Proof.
  intros Hm [H1 H2]. unfold scaled. assert (E : (inject_Z 32767 * a / m * (1 # 2) == (32767 # 2) * (a / m))%Q) by (unfold Qdiv; change (inject_Z 32767) with (32767 # 1); ring). rewrite E.
  assert (A : (a / m <= 1)%Q) by (apply Qle_shift_div_r; [exact Hm | lra]). assert (B : (- (2) <= a / m)%Q) by (apply Qle_shift_div_l; [exact Hm | lra]). lra.
Qed.
Lemma scaled_sign m a : (0 < m)%Q -> ((0 <= a)%Q -> (0 <= scaled m a)%Q) /\ ((a <= 0)%Q -> (scaled m a <= 0)%Q).
Proof.
  intros Hm. unfold scaled. assert (E : (inject_Z 32767 * a / m * (1 # 2) == (32767 # 2) * (a / m))%Q) by (unfold Qdiv; change (inject_Z 32767) with (32767 # 1); ring). split; intros H; rewrite E.
  - assert (A : (0 <= a / m)%Q) by (apply Qle_shift_div_l; [exact Hm | lra]). lra.
  - assert (A : (a / m <= 0)%Q) by (apply Qle_shift_div_r; [exact Hm | lra]). lra.
Qed.
Lemma scaled_mono m a b : (0 < m)%Q -> (a <= b)%Q -> (scaled m a <= scaled m b)%Q.
Proof.
  intros Hm H. unfold scaled. assert (E : forall a, (inject_Z 32767 * a / m * (1 # 2) == (32767 # 2) * (a / m))%Q) by (intros; unfold Qdiv; change (inject_Z 32767) with (32767 # 1); ring). rewrite !E.
  assert (A : (a / m <= b / m)%Q) by (unfold Qdiv; apply Qmult_le_compat_r; [exact H | apply Qlt_le_weak, Qinv_lt_0_compat; exact Hm]). lra.
Qed.
Lemma to_int16_ok m a : (0 < m)%Q -> (- (2 * m) <= a <= m)%Q -> to_int16 (scaled m a) = py_int (scaled m a) /\ -32767 <= py_int (scaled m a) <= 16383.
Proof.
  intros Hm H. destruct (scaled_range m a Hm H) as [A B].
  assert (C : -32767 <= py_int (scaled m a) <= 16383).
  { split; [change (-32767) with (py_int (-32767 # 1)) | change 16383 with (py_int (32767 # 2))]; apply py_int_mono; assumption. }
  split; [|exact C]. apply wrap_id. lia.
Qed.
