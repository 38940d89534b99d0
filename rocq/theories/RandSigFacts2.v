From Coq Require Import QArith Qround Reals Lra Lqa.
From Verif Require Import Base BaseFacts Level LevelSpec RandSig RandSigSpec RandSigFacts.
Local Open Scope R_scope.

Section Random.
Variables (p : rand_params) (n : nat) (fs : Q).
Hypothesis Hp : rp_pauses p = RandomPauses.
Hypothesis H1 : (0 <= rp_rmin p)%Q.
Hypothesis H2 : (rp_rmin p <= rp_rmax p)%Q.
Hypothesis H3 : (0 < rp_rmax p)%Q.
Hypothesis Hf : (0 < fs)%Q.
Let N := inject_Z (Z.of_nat n).
Let np := Z.to_nat (Qfloor (N / (2 * (rp_rmin p + rp_rmax p) * fs)))%Q.

Lemma dpos : (0 < (rp_rmin p + rp_rmax p) * fs)%Q.
Proof. apply Qmult_lt_0_compat; lra. Qed.
Lemma num_ok : num_pauses p n fs = Ok np.
Proof.
  unfold num_pauses. pose proof dpos as D. destruct (Qeq_bool _ 0) eqn:E; [apply Qeq_bool_iff in E; rewrite E in D; discriminate D|]. f_equal. f_equal.
  assert (Q : (N / ((rp_rmin p + rp_rmax p) * fs) / 2 == N / (2 * (rp_rmin p + rp_rmax p) * fs))%Q) by (field; repeat split; lra).
  rewrite int_of_nonneg.
  - fold N. rewrite Q. reflexivity.
  - assert (0 <= N)%Q by (unfold N; replace 0%Q with (inject_Z 0) by reflexivity; rewrite <- Zle_Qle; lia).
    apply Qle_shift_div_l; [reflexivity|]. apply Qle_shift_div_l; [exact D|]. fold N. lra.
Qed.

(** a pause exists only if the signal can hold twice the sum of the two durations *)
Lemma room i : (i < np)%nat -> (2 * ((rp_rmin p + rp_rmax p) * fs) <= N)%Q.
Proof.
  intros Hi. pose proof dpos as D. assert (F := Qfloor_le (N / (2 * (rp_rmin p + rp_rmax p) * fs))).
  assert (G : (1 <= N / (2 * (rp_rmin p + rp_rmax p) * fs))%Q).
  { eapply Qle_trans; [|exact F]. replace 1%Q with (inject_Z 1) by reflexivity. rewrite <- Zle_Qle. unfold np in Hi. lia. }
  apply (Qmult_le_compat_r _ _ (2 * (rp_rmin p + rp_rmax p) * fs)) in G; [|lra].
  assert (E : (N / (2 * (rp_rmin p + rp_rmax p) * fs) * (2 * (rp_rmin p + rp_rmax p) * fs) == N)%Q) by (field; split; lra).
  rewrite E in G. lra.
Qed.

Variable ds : nat -> Q * Q.
Hypothesis Hds : forall i, (0 <= fst (ds i) <= 1 /\ 0 <= snd (ds i) <= 1)%Q.
Let leng i := (rp_rmin p + (rp_rmax p - rp_rmin p) * fst (ds i))%Q.
Let pos i := ((N - leng i * fs) * snd (ds i))%Q.

Lemma leng_range i : (rp_rmin p <= leng i <= rp_rmax p)%Q.
Proof. destruct (Hds i) as [[A B] _]. unfold leng. split; nra. Qed.
Lemma pos_range i : (i < np)%nat -> (0 <= pos i /\ pos i + leng i * fs <= N)%Q.
Proof.
  intros Hi. pose proof (room i Hi) as R. destruct (leng_range i) as [A B]. destruct (Hds i) as [_ [C D]]. unfold pos.
  assert (0 <= N - leng i * fs)%Q by nra. split; [nra|]. nra.
Qed.

Definition stretch i : nat * nat := (Z.to_nat (Qfloor (pos i)), Z.to_nat (Qfloor (pos i + leng i * fs)%Q)).
Lemma stretch_ok i : (i < np)%nat ->
  int_of (pos i) = Z.of_nat (fst (stretch i)) /\ int_of (pos i + leng i * fs)%Q = Z.of_nat (snd (stretch i)) /\
  (fst (stretch i) <= snd (stretch i) <= n)%nat /\
  (leng i * fs - 1 < inject_Z (Z.of_nat (snd (stretch i) - fst (stretch i))) < leng i * fs + 1)%Q.
Proof.
  intros Hi. destruct (pos_range i Hi) as [A B]. destruct (leng_range i) as [C D].
  assert (L : (0 <= leng i * fs)%Q) by (apply Qmult_le_0_compat; lra).
  assert (F1 := floor_nonneg _ A). assert (F2 : (0 <= Qfloor (pos i + leng i * fs))%Z) by (apply floor_nonneg; lra).
  assert (F3 : (Qfloor (pos i) <= Qfloor (pos i + leng i * fs))%Z) by (apply Qfloor_resp_le; lra).
  assert (F4 : (Qfloor (pos i + leng i * fs) <= Z.of_nat n)%Z).
  { apply Qfloor_resp_le in B. unfold N in B. rewrite Qfloor_Z in B. exact B. }
  assert (G1 := Qfloor_le (pos i)). assert (G2 := Qlt_floor (pos i)).
  assert (G3 := Qfloor_le (pos i + leng i * fs)). assert (G4 := Qlt_floor (pos i + leng i * fs)).
  unfold stretch. cbn [fst snd]. rewrite !int_of_nonneg by lra. split; [lia|]. split; [lia|]. split; [lia|].
  replace (Z.of_nat (Z.to_nat (Qfloor (pos i + leng i * fs)) - Z.to_nat (Qfloor (pos i)))) with (Qfloor (pos i + leng i * fs) + - Qfloor (pos i))%Z by lia.
  rewrite inject_Z_plus, inject_Z_opp. rewrite inject_Z_plus in G2, G4. change (inject_Z 1) with 1%Q in *. lra.
Qed.

Lemma random us : known (rp_distribution p) ->
  exists y, generate_rand_signal p n fs false us ds = Ok y /\
  silenced n (fun i => drawn (rp_distribution p) (rp_min p) (rp_max p) (us i)) (map stretch (seq 0 np)) y.
Proof.
  intros Hd. unfold generate_rand_signal. rewrite (draw_known _ _ _ _ _ Hd). cbn [bind]. rewrite Hp, num_ok. cbn [bind]. eexists. split; [reflexivity|].
  assert (E : forall l y, (forall i, In i l -> (i < np)%nat) ->
    fold_left (fun y i => random_pause p n fs (ds i) y) l y =
    fold_left (fun y ab => zero_slice (fst ab) (snd ab) y) (map (fun i => (Z.of_nat (fst (stretch i)), Z.of_nat (snd (stretch i)))) l) y).
  { induction l as [|i l IH]; intros y Hl; [reflexivity|]. cbn [map fold_left fst snd].
    rewrite IH by (intros j Hj; apply Hl; right; exact Hj). f_equal.
    unfold random_pause. fold (leng i). fold N. fold (pos i). destruct (stretch_ok i (Hl i (or_introl eq_refl))) as (-> & -> & _). reflexivity. }
  rewrite E by (intros i Hi; apply in_seq in Hi; lia).
  match goal with |- context [fold_left _ ?l ?y] => pose proof (zero_slices l y) as Q end. destruct Q as [L M].
  { intros ab I. apply in_map_iff in I. destruct I as (i & <- & _). cbn [fst snd]. lia. }
  rewrite map_length, seq_length in L, M. split; [exact L|]. intros i Hi. destruct (M i Hi) as [M1 M2]. split.
  - intros (ab & I & B). apply in_map_iff in I. destruct I as (j & <- & I). apply M1. exists (Z.of_nat (fst (stretch j)), Z.of_nat (snd (stretch j))).
    split; [apply in_map_iff; exists j; split; [reflexivity|exact I]|]. cbn [fst snd]. lia.
  - intros B. rewrite M2; [apply (nth_map_seq0 (fun i => drawn _ _ _ (us i))), Hi|]. intros ab I. apply in_map_iff in I. destruct I as (j & <- & I). cbn [fst snd].
    specialize (B (stretch j) (in_map _ _ _ I)). lia.
Qed.

Lemma filter_seq_range a b m : forall s, (length (filter (fun i => Nat.leb a i && Nat.ltb i b) (seq s m)) <= b - Nat.max a s)%nat.
Proof.
  induction m as [|m IH]; intros s; [cbn; lia|]. cbn [seq filter]. specialize (IH (S s)).
  destruct (Nat.leb a s && Nat.ltb s b) eqn:E; cbn [length]; lia.
Qed.
Lemma filter_or {A} (f g : A -> bool) l : (length (filter (fun x => f x || g x) l) <= length (filter f l) + length (filter g l))%nat.
Proof. induction l as [|x l IH]; [cbn; lia|]. cbn [filter]. destruct (f x), (g x); cbn [orb length] in *; lia. Qed.
Lemma covered_le st : (covered n st <= list_sum (map (fun ab => snd ab - fst ab) st))%nat.
Proof.
  unfold covered. induction st as [|ab st IH]; cbn [existsb map list_sum fold_right].
  - induction (seq 0 n) as [|x l IHl]; [cbn; lia|exact IHl].
  - eapply Nat.le_trans; [apply (filter_or (fun i => Nat.leb (fst ab) i && Nat.ltb i (snd ab)))|]. 
    pose proof (filter_seq_range (fst ab) (snd ab) n 0). fold (list_sum (map (fun ab => snd ab - fst ab)%nat st)). lia.
Qed.

Lemma half : (inject_Z (Z.of_nat (covered n (map stretch (seq 0 np)))) <= N / 2 + inject_Z (Z.of_nat np))%Q.
Proof.
  pose proof dpos as D.
  assert (S : forall l, (forall i, In i l -> (i < np)%nat) -> (inject_Z (Z.of_nat (list_sum (map (fun ab => snd ab - fst ab)%nat (map stretch l)))) <= inject_Z (Z.of_nat (length l)) * (rp_rmax p * fs + 1))%Q).
  { induction l as [|i l IH]; intros Hl; [cbn; discriminate || lra|]. cbn [map list_sum fold_right length].
    fold (list_sum (map (fun ab => snd ab - fst ab)%nat (map stretch l))).
    specialize (IH (fun j Hj => Hl j (or_intror Hj))). destruct (stretch_ok i (Hl i (or_introl eq_refl))) as (_ & _ & _ & _ & B). destruct (leng_range i) as [_ C].
    rewrite Nat2Z.inj_add, inject_Z_plus. replace (Z.of_nat (S (length l))) with (1 + Z.of_nat (length l))%Z by lia. rewrite inject_Z_plus. change (inject_Z 1) with 1%Q.
    assert (leng i * fs <= rp_rmax p * fs)%Q by (apply Qmult_le_compat_r; lra). lra. }
  specialize (S (seq 0 np) ltac:(intros i Hi; apply in_seq in Hi; lia)). rewrite seq_length in S.
  assert (C : (inject_Z (Z.of_nat (covered n (map stretch (seq 0 np)))) <= inject_Z (Z.of_nat np) * (rp_rmax p * fs + 1))%Q).
  { eapply Qle_trans; [|exact S]. rewrite <- Zle_Qle. pose proof (covered_le (map stretch (seq 0 np))). lia. }
  assert (N0 : (0 <= N)%Q) by (unfold N; replace 0%Q with (inject_Z 0) by reflexivity; rewrite <- Zle_Qle; lia).
  assert (F := Qfloor_le (N / (2 * (rp_rmin p + rp_rmax p) * fs))).
  assert (F0 : (0 <= Qfloor (N / (2 * (rp_rmin p + rp_rmax p) * fs)))%Z).
  { apply floor_nonneg. apply Qle_shift_div_l; lra. }
  assert (P : (inject_Z (Z.of_nat np) * (2 * (rp_rmin p + rp_rmax p) * fs) <= N)%Q).
  { assert (E : (N / (2 * (rp_rmin p + rp_rmax p) * fs) * (2 * (rp_rmin p + rp_rmax p) * fs) == N)%Q) by (field; split; lra).
    rewrite <- E. apply Qmult_le_compat_r; [|lra]. unfold np. rewrite Z2Nat.id by exact F0. exact F. }
  assert (M0 : (0 <= inject_Z (Z.of_nat np))%Q) by (replace 0%Q with (inject_Z 0) by reflexivity; rewrite <- Zle_Qle; lia).
  assert (K : (inject_Z (Z.of_nat np) * (rp_rmax p * fs) <= inject_Z (Z.of_nat np) * ((rp_rmin p + rp_rmax p) * fs))%Q).
  { rewrite !(Qmult_comm (inject_Z (Z.of_nat np))). apply Qmult_le_compat_r; [|exact M0]. apply Qmult_le_compat_r; lra. }
  assert (T : (N / 2 == N * (1 # 2))%Q) by field. rewrite T. lra.
Qed.
End Random.
