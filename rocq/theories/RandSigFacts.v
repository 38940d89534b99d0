From Coq Require Import QArith Qround Reals Lra Lqa.
From Verif Require Import Base BaseFacts RandSig RandSigSpec.
Local Open Scope R_scope.

Lemma py_bound_nonneg n i : (0 <= i)%Z -> py_bound n i = Nat.min (Z.to_nat i) n.
Proof. intros H. unfold py_bound. destruct (Z.ltb_spec i 0); lia. Qed.

Lemma zero_slice_length a b y : (0 <= a)%Z -> (0 <= b)%Z -> length (zero_slice a b y) = length y.
Proof.
  intros Ha Hb. unfold zero_slice. rewrite !py_bound_nonneg by assumption.
  rewrite !app_length, firstn_length, repeat_length, skipn_length. lia.
Qed.

Lemma zero_slice_nth a b y i : (0 <= a)%Z -> (0 <= b)%Z -> (i < length y)%nat ->
  nth i (zero_slice a b y) 0 = if ((a <=? Z.of_nat i) && (Z.of_nat i <? b))%Z then 0 else nth i y 0.
Proof.
  intros Ha Hb Hi. unfold zero_slice. rewrite !py_bound_nonneg by assumption.
  set (a' := Nat.min (Z.to_nat a) (length y)). set (b' := Nat.min (Z.to_nat b) (length y)).
  assert (La : length (firstn a' y) = a') by (rewrite firstn_length; lia).
  destruct (Nat.lt_ge_cases i a') as [H1|H1].
  - rewrite app_nth1 by lia. rewrite <- (firstn_skipn a' y) at 2. rewrite app_nth1 by lia.
    replace ((a <=? Z.of_nat i) && (Z.of_nat i <? b))%Z with false; [reflexivity|]. symmetry. apply andb_false_iff. left. lia.
  - rewrite app_nth2 by lia. rewrite La. destruct (Nat.lt_ge_cases (i - a') (b' - a')) as [H2|H2].
    + rewrite app_nth1 by (rewrite repeat_length; lia). rewrite nth_repeat.
      replace ((a <=? Z.of_nat i) && (Z.of_nat i <? b))%Z with true; [reflexivity|]. symmetry. apply andb_true_iff. split; lia.
    + rewrite app_nth2 by (rewrite repeat_length; lia). rewrite repeat_length.
      replace ((a <=? Z.of_nat i) && (Z.of_nat i <? b))%Z with false.
      * rewrite <- (firstn_skipn (Nat.max a' b') y) at 2. rewrite app_nth2; rewrite firstn_length; [|lia]. f_equal. lia.
      * symmetry. apply andb_false_iff. lia.
Qed.

Lemma zero_slices ps : forall y, (forall ab, In ab ps -> 0 <= fst ab /\ 0 <= snd ab)%Z ->
  let z := fold_left (fun y ab => zero_slice (fst ab) (snd ab) y) ps y in
  length z = length y /\
  forall i, (i < length y)%nat ->
    ((exists ab, In ab ps /\ (fst ab <= Z.of_nat i < snd ab)%Z) -> nth i z 0 = 0) /\
    ((forall ab, In ab ps -> ~ (fst ab <= Z.of_nat i < snd ab)%Z) -> nth i z 0 = nth i y 0).
Proof.
  induction ps as [|[a b] ps IH]; intros y H; cbn zeta.
  - cbn [fold_left]. split; [reflexivity|]. intros i Hi. split; [intros (ab & [] & _)|reflexivity].
  - cbn [fold_left fst snd]. destruct (H (a, b) (or_introl eq_refl)) as [Ha Hb]. cbn [fst snd] in Ha, Hb.
    assert (HL := zero_slice_length a b y Ha Hb).
    destruct (IH (zero_slice a b y) (fun ab I => H ab (or_intror I))) as [L N]. split; [lia|].
    intros i Hi. rewrite <- HL in Hi. destruct (N i Hi) as [N1 N2]. rewrite HL in Hi.
    assert (Z0 := zero_slice_nth a b y i Ha Hb Hi).
    assert (D : forall l, (exists ab, In ab l /\ (fst ab <= Z.of_nat i < snd ab)%Z) \/ (forall ab, In ab l -> ~ (fst ab <= Z.of_nat i < snd ab)%Z)).
    { clear. induction l as [|ab l IHl]; [right; intros ? []|]. destruct IHl as [(x & I & E)|E]; [left; exists x; split; [right; exact I|exact E]|].
      destruct (Z_le_dec (fst ab) (Z.of_nat i)); [destruct (Z_lt_dec (Z.of_nat i) (snd ab))|].
      - left. exists ab. split; [left; reflexivity|lia].
      - right. intros x [<-|I]; [lia|apply E, I].
      - right. intros x [<-|I]; [lia|apply E, I]. }
    split.
    + intros (ab & [<-|I] & E); [|apply N1; exists ab; split; assumption].
      cbn [fst snd] in E. destruct (D ps) as [D1|D1]; [apply N1, D1|]. rewrite (N2 D1), Z0.
      replace ((a <=? Z.of_nat i) && (Z.of_nat i <? b))%Z with true; [reflexivity|]. symmetry. apply andb_true_iff. lia.
    + intros E. rewrite (N2 (fun ab I => E ab (or_intror I))), Z0. specialize (E (a, b) (or_introl eq_refl)). cbn [fst snd] in E.
      replace ((a <=? Z.of_nat i) && (Z.of_nat i <? b))%Z with false; [reflexivity|]. symmetry. apply andb_false_iff. lia.
Qed.

Lemma fold_left_map {A B C} (f : A -> B -> A) (g : C -> B) l : forall a, fold_left f (map g l) a = fold_left (fun a c => f a (g c)) l a.
Proof. induction l as [|c l IH]; intros a; [reflexivity|]. cbn [map fold_left]. apply IH. Qed.

Lemma draw_known d lo hi us n : known d -> draw d lo hi (map us (seq 0 n)) = Ok (map (fun i => drawn d lo hi (us i)) (seq 0 n)).
Proof. intros [-> | -> ]; cbn [draw drawn]; rewrite map_map; reflexivity. Qed.
Lemma draw_inv d lo hi us y : draw d lo hi us = Ok y -> known d.
Proof. destruct d; cbn [draw]; intros H; [left|right|discriminate]; reflexivity. Qed.

Lemma int_of_nonneg q : (0 <= q)%Q -> int_of q = Qfloor q.
Proof. intros H. unfold int_of. apply Qle_bool_iff in H. rewrite H. reflexivity. Qed.
Lemma floor_nonneg q : (0 <= q)%Q -> (0 <= Qfloor q)%Z.
Proof. intros H. apply Qfloor_resp_le in H. exact H. Qed.
Lemma floor_inj (z : Z) q : (inject_Z z <= q)%Q -> (z <= Qfloor q)%Z.
Proof. intros H. apply Qfloor_resp_le in H. rewrite Qfloor_Z in H. exact H. Qed.

Lemma nth_map_seq0 (f : nat -> R) n i : (i < n)%nat -> nth i (map f (seq 0 n)) 0 = f i.
Proof. intros H. rewrite nth_indep with (d' := f 0%nat) by (rewrite map_length, seq_length; lia). rewrite map_nth, seq_nth by lia. f_equal. Qed.

Section Regular.
Variables (p : rand_params) (n : nat) (fs : Q).
Hypothesis Hp : rp_pauses p = PredefinedPauses.
Hypothesis H1 : (0 <= rp_pause p)%Q.
Hypothesis H2 : (0 <= rp_spacing p)%Q.
Hypothesis H3 : (0 < rp_pause p + rp_spacing p)%Q.
Hypothesis Hf : (0 < fs)%Q.
Let first := (if rp_start p then 0 else rp_spacing p)%Q.

Lemma regular us ds : known (rp_distribution p) ->
  exists y, generate_rand_signal p n fs false us ds = Ok y /\ length y = n /\
  forall i, (i < n)%nat ->
    (paused first (rp_pause p) (rp_spacing p) fs i -> nth i y 0 = 0) /\
    (~ paused first (rp_pause p) (rp_spacing p) fs i -> nth i y 0 = drawn (rp_distribution p) (rp_min p) (rp_max p) (us i)).
Proof.
  intros Hd. unfold generate_rand_signal. rewrite (draw_known _ _ _ _ _ Hd). cbn [bind]. rewrite Hp.
  set (x := fun i => drawn (rp_distribution p) (rp_min p) (rp_max p) (us i)). unfold regular_pauses, arange.
  set (leng := (rp_pause p * fs)%Q). set (space := (rp_spacing p * fs)%Q).
  assert (Hl : (0 <= leng)%Q) by (unfold leng; apply Qmult_le_0_compat; [exact H1|apply Qlt_le_weak, Hf]).
  assert (Hs : (0 <= space)%Q) by (unfold space; apply Qmult_le_0_compat; [exact H2|apply Qlt_le_weak, Hf]).
  assert (Ht : (0 < space + leng)%Q).
  { assert (E : (space + leng == (rp_pause p + rp_spacing p) * fs)%Q) by (unfold space, leng; ring). rewrite E. apply Qmult_lt_0_compat; assumption. }
  destruct (Qeq_bool (space + leng) 0) eqn:E0; [apply Qeq_bool_iff in E0; rewrite E0 in Ht; discriminate Ht|]. cbn [bind].
  set (start := if rp_start p then 0%Q else space).
  assert (Es : (start == first * fs)%Q) by (unfold start, first, space; destruct (rp_start p); [ring|reflexivity]).
  assert (Hst : (0 <= start)%Q) by (unfold start; destruct (rp_start p); [discriminate|exact Hs]).
  set (K := Z.to_nat (Qceiling ((inject_Z (Z.of_nat n) - start) / (space + leng)))).
  eexists. split; [reflexivity|]. rewrite fold_left_map.
  rewrite <- (fold_left_map (fun y ab => zero_slice (fst ab) (snd ab) y) (fun k => (int_of (start + inject_Z (Z.of_nat k) * (space + leng)), int_of (start + inject_Z (Z.of_nat k) * (space + leng) + leng)))).
  assert (P : forall k, (0 <= start + inject_Z (Z.of_nat k) * (space + leng))%Q).
  { intros k. assert (0 <= inject_Z (Z.of_nat k) * (space + leng))%Q; [|lra]. apply Qmult_le_0_compat; [|lra]. replace 0%Q with (inject_Z 0) by reflexivity. rewrite <- Zle_Qle. lia. }
  match goal with |- context [fold_left _ ?l ?y] => pose proof (zero_slices l y) as Q end.
  destruct Q as [L N].
  { intros ab I. apply in_map_iff in I. destruct I as (k & <- & _). cbn [fst snd]. specialize (P k). rewrite !int_of_nonneg by lra. split; apply floor_nonneg; lra. }
  rewrite map_length, seq_length in L, N. split; [exact L|]. intros i Hi. destruct (N i Hi) as [N1 N2]. split.
  - intros (k & Hk). cbn zeta in Hk. apply N1. 
    assert (EQ : (start + inject_Z (Z.of_nat k) * (space + leng) == first * fs + inject_Z (Z.of_nat k) * (rp_spacing p * fs + rp_pause p * fs))%Q) by (rewrite Es; unfold space, leng; reflexivity).
    exists (int_of (start + inject_Z (Z.of_nat k) * (space + leng)), int_of (start + inject_Z (Z.of_nat k) * (space + leng) + leng)).
    assert (B : (Qfloor (start + inject_Z (Z.of_nat k) * (space + leng)) <= Z.of_nat i < Qfloor (start + inject_Z (Z.of_nat k) * (space + leng) + leng))%Z).
    { unfold leng at 3. rewrite EQ. exact Hk. }
    split; [|cbn [fst snd]; specialize (P k); rewrite !int_of_nonneg by lra; exact B].
    apply in_map_iff. exists k. split; [reflexivity|]. apply in_seq. split; [lia|]. cbn [Nat.add].
    destruct (Nat.lt_ge_cases k K) as [H|H]; [exact H|exfalso].
    assert (C : (inject_Z (Z.of_nat n) <= start + inject_Z (Z.of_nat k) * (space + leng))%Q).
    { assert (A := Qle_ceiling ((inject_Z (Z.of_nat n) - start) / (space + leng))).
      assert (A2 : (inject_Z (Qceiling ((inject_Z (Z.of_nat n) - start) / (space + leng))) <= inject_Z (Z.of_nat k))%Q) by (rewrite <- Zle_Qle; unfold K in H; lia).
      assert (A3 : ((inject_Z (Z.of_nat n) - start) / (space + leng) <= inject_Z (Z.of_nat k))%Q) by (eapply Qle_trans; [exact A|exact A2]).
      apply (Qmult_le_compat_r _ _ (space + leng)) in A3; [|lra].
      assert (A4 : ((inject_Z (Z.of_nat n) - start) / (space + leng) * (space + leng) == inject_Z (Z.of_nat n) - start)%Q) by (field; lra).
      rewrite A4 in A3. lra. }
    apply floor_inj in C. lia.
  - intros Hk. rewrite N2; [apply nth_map_seq0, Hi|]. intros ab I. apply in_map_iff in I. destruct I as (k & <- & _). cbn [fst snd].
    specialize (P k). rewrite !int_of_nonneg by lra. intros C. apply Hk. exists k. cbn zeta.
    assert (EQ : (start + inject_Z (Z.of_nat k) * (space + leng) == first * fs + inject_Z (Z.of_nat k) * (rp_spacing p * fs + rp_pause p * fs))%Q) by (rewrite Es; unfold space, leng; reflexivity).
    rewrite <- EQ. exact C.
Qed.
End Regular.

(** whole numbers of samples *)
Lemma paused_mod first pause spacing fs (F P S : nat) i :
  (first * fs == inject_Z (Z.of_nat F))%Q -> (pause * fs == inject_Z (Z.of_nat P))%Q -> (spacing * fs == inject_Z (Z.of_nat S))%Q -> (0 < P + S)%nat ->
  (paused first pause spacing fs i <-> (F <= i)%nat /\ ((i - F) mod (P + S) < P)%nat).
Proof.
  intros E1 E2 E3 HP. unfold paused. cbn zeta. split.
  - intros (k & Hk). rewrite E1, E2, E3 in Hk.
    assert (G : (inject_Z (Z.of_nat F) + inject_Z (Z.of_nat k) * (inject_Z (Z.of_nat S) + inject_Z (Z.of_nat P)) == inject_Z (Z.of_nat (F + k * (P + S))))%Q).
    { rewrite <- inject_Z_plus, <- inject_Z_mult, <- inject_Z_plus. rewrite (ltac:(lia) : (Z.of_nat F + Z.of_nat k * (Z.of_nat S + Z.of_nat P) = Z.of_nat (F + k * (P + S)))%Z). reflexivity. }
    rewrite G, <- inject_Z_plus, !Qfloor_Z in Hk. split; [lia|].
    replace (i - F)%nat with ((i - F - k * (P + S)) + k * (P + S))%nat by lia. rewrite Nat.mod_add by lia. rewrite Nat.mod_small; lia.
  - intros [H1 H2]. exists ((i - F) / (P + S))%nat. set (k := ((i - F) / (P + S))%nat) in *.
    assert (D := Nat.div_mod (i - F) (P + S) ltac:(lia)). fold k in D.
    rewrite E1, E2, E3.
    assert (G : (inject_Z (Z.of_nat F) + inject_Z (Z.of_nat k) * (inject_Z (Z.of_nat S) + inject_Z (Z.of_nat P)) == inject_Z (Z.of_nat (F + k * (P + S))))%Q).
    { rewrite <- inject_Z_plus, <- inject_Z_mult, <- inject_Z_plus. rewrite (ltac:(lia) : (Z.of_nat F + Z.of_nat k * (Z.of_nat S + Z.of_nat P) = Z.of_nat (F + k * (P + S)))%Z). reflexivity. }
    rewrite G, <- inject_Z_plus, !Qfloor_Z. lia.
Qed.
