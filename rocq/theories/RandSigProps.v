(** Theorems about random source signals and random impulse responses (C81). *)
From Coq Require Import QArith Qround Reals Lra Lqa Qreals.
From Verif Require Import Base BaseFacts Level LevelSpec RandSig RandSigSpec RandSigFacts RandSigFacts2 RandSigFacts3.
Local Open Scope R_scope.

Lemma q2r_pos q : (0 < q)%Q -> Q2R q <> 0.
Proof. intros H. apply Qlt_Rlt in H. rewrite RMicromega.Q2R_0 in H. Lra.lra. Qed.

(** Predefined pauses: the signal is generated, has the requested length, is zero in the
    pauses and is the value drawn everywhere else. *)
Theorem C81_regular_pauses p n fs us ds : rp_pauses p = PredefinedPauses -> known (rp_distribution p) ->
  (0 <= rp_pause p)%Q -> (0 <= rp_spacing p)%Q -> (0 < rp_pause p + rp_spacing p)%Q -> (0 < fs)%Q ->
  let first := (if rp_start p then 0 else rp_spacing p)%Q in
  exists y, generate_rand_signal p n fs false us ds = Ok y /\ length y = n /\
  forall i, (i < n)%nat ->
    (paused first (rp_pause p) (rp_spacing p) fs i -> nth i y 0 = 0) /\
    (~ paused first (rp_pause p) (rp_spacing p) fs i -> nth i y 0 = drawn (rp_distribution p) (rp_min p) (rp_max p) (us i)).
Proof. intros Hp Hd H1 H2 H3 Hf. exact (regular p n fs Hp H1 H2 H3 Hf us ds Hd). Qed.

(** With durations of whole numbers of samples: after the first [F] samples, [P] silent
    samples alternate with [S] samples as drawn. *)
Theorem C81_regular_in_samples first pause spacing fs F P S i :
  (first * fs == inject_Z (Z.of_nat F))%Q -> (pause * fs == inject_Z (Z.of_nat P))%Q -> (spacing * fs == inject_Z (Z.of_nat S))%Q -> (0 < P + S)%nat ->
  (paused first pause spacing fs i <-> (F <= i)%nat /\ ((i - F) mod (P + S) < P)%nat).
Proof. exact (paused_mod first pause spacing fs F P S i). Qed.

(** Random pauses, whatever is drawn: as many pauses as the signal holds twice the sum of
    the shortest and the longest; every pause lies within the signal and lasts between
    the shortest and the longest duration, up to one sample; outside pauses the signal is
    the value drawn; and at least about half of the samples stay active. *)
Theorem C81_random_pauses p n fs us ds : rp_pauses p = RandomPauses -> known (rp_distribution p) ->
  (0 <= rp_rmin p)%Q -> (rp_rmin p <= rp_rmax p)%Q -> (0 < rp_rmax p)%Q -> (0 < fs)%Q ->
  (forall i, 0 <= fst (ds i) <= 1 /\ 0 <= snd (ds i) <= 1)%Q ->
  let np := Z.to_nat (Qfloor (inject_Z (Z.of_nat n) / (2 * (rp_rmin p + rp_rmax p) * fs))) in
  exists y stretches, generate_rand_signal p n fs false us ds = Ok y /\ length stretches = np /\
    silenced n (fun i => drawn (rp_distribution p) (rp_min p) (rp_max p) (us i)) stretches y /\
    (forall a b, In (a, b) stretches -> (a <= b <= n)%nat /\
      exists len, (rp_rmin p <= len <= rp_rmax p)%Q /\ (len * fs - 1 < inject_Z (Z.of_nat (b - a)) < len * fs + 1)%Q) /\
    (inject_Z (Z.of_nat (covered n stretches)) <= inject_Z (Z.of_nat n) / 2 + inject_Z (Z.of_nat np))%Q.
Proof.
  intros Hp Hd H1 H2 H3 Hf Hds np. destruct (random p n fs Hp H1 H2 H3 Hf ds Hds us Hd) as (y & E & S).
  exists y, (map (stretch p n fs ds) (seq 0 np)). split; [exact E|]. split; [rewrite map_length, seq_length; reflexivity|]. split; [exact S|]. split.
  - intros a b I. apply in_map_iff in I. destruct I as (i & Ei & Hi). apply in_seq in Hi.
    destruct (stretch_ok p n fs H1 H2 H3 Hf ds Hds i ltac:(fold np; lia)) as (_ & _ & B & C). rewrite Ei in B, C. split; [exact B|].
    exists (rp_rmin p + (rp_rmax p - rp_rmin p) * fst (ds i))%Q. split; [apply (leng_range p H2 ds Hds)|exact C].
  - exact (half p n fs H1 H2 H3 Hf ds Hds).
Qed.

(** Without pauses (all noise sources): exactly the values drawn. *)
Theorem C81_no_pauses p n fs no_pauses us ds : no_pauses = true \/ rp_pauses p = NoPauses -> known (rp_distribution p) ->
  generate_rand_signal p n fs no_pauses us ds = Ok (map (fun i => drawn (rp_distribution p) (rp_min p) (rp_max p) (us i)) (seq 0 n)).
Proof.
  intros H Hd. unfold generate_rand_signal. rewrite (draw_known _ _ _ _ _ Hd). cbn [bind]. destruct H as [-> | ->]; [reflexivity|]. destruct no_pauses; reflexivity.
Qed.
(** A distribution other than the two documented ones is never accepted. *)
Theorem C81_other_distribution p n fs no_pauses us ds : rp_distribution p = OtherDistribution -> generate_rand_signal p n fs no_pauses us ds = Err UnboundLocalError.
Proof. intros H. unfold generate_rand_signal. rewrite H. reflexivity. Qed.

(** Random impulse responses: one per node, sensor of the node and source, each of the
    requested duration, with the requested decay. *)
Theorem C81_impulse_responses p fs sensors nodes n_d n_n ud un : known (ir_distribution p) -> (0 <= ir_duration p)%Q -> (0 < fs)%Q -> (0 < ir_tau p)%Q ->
  (ir_decay p = ImmediateDecay -> 1 <= ir_duration p * fs)%Q -> (nodes <= length sensors)%nat ->
  exists d n, random_impulse_responses p nodes sensors n_d n_n fs ud un = Ok (d, n) /\
  forall irs n_s u, (irs, n_s, u) = (d, n_d, ud) \/ (irs, n_s, u) = (n, n_n, un) ->
    length irs = nodes /\ forall k, (k < nodes)%nat -> length (nth k irs []) = nth k sensors 0%nat /\
    forall m, (m < nth k sensors 0)%nat -> length (nth m (nth k irs []) []) = n_s /\
    forall j, (j < n_s)%nat -> let r := nth j (nth m (nth k irs []) []) [] in
      length r = Z.to_nat (Qfloor (ir_duration p * fs)) /\ forall t, (t < length r)%nat -> nth t r 0 = ir_value p fs (u k m j) t.
Proof.
  intros Hd Hl Hf Ht Hi Hn.
  destruct (shape p fs sensors n_d n_n ud un Hd ltac:(apply Qmult_le_0_compat; lra) Hi (q2r_pos _ Ht) (q2r_pos _ Hf) nodes Hn) as (d & n & E & D & N).
  exists d, n. split; [exact E|]. intros irs n_s u [H|H]; injection H as -> -> ->; [exact D|exact N].
Qed.
(** With immediate decay every sensor receives a source scaled by a non-negative factor
    without delay; a duration of less than one sample is refused. *)
Theorem C81_immediate p fs us x t : ir_decay p = ImmediateDecay -> known (ir_distribution p) -> (1 <= ir_duration p * fs)%Q ->
  exists r, random_rir p fs us = Ok r /\ conv_at r x t = Rabs (drawn (ir_distribution p) (ir_min p) (ir_max p) (us 0%nat)) * nth t x 0.
Proof.
  intros He Hd Hi. set (p' := mkIR (ir_distribution p) (ir_min p) (ir_max p) (ir_duration p * fs) ImmediateDecay 1).
  assert (E : random_rir p fs us = random_rir p' 1 us).
  { unfold random_rir, p'. cbn [ir_distribution ir_min ir_max ir_duration ir_decay ir_tau]. rewrite He. assert (Q : (ir_duration p * fs * 1 == ir_duration p * fs)%Q) by ring.
    rewrite !int_of_nonneg by lra. assert (Q' : Qfloor (ir_duration p * fs * 1) = Qfloor (ir_duration p * fs)) by (rewrite Q; reflexivity). rewrite Q'. reflexivity. }
  assert (A1 : (0 <= ir_duration p' * 1)%Q) by (cbn [p' ir_duration]; lra).
  assert (A2 : (ir_decay p' = ImmediateDecay -> 1 <= ir_duration p' * 1)%Q) by (intros _; cbn [p' ir_duration]; lra).
  destruct (rir_ok p' 1 us Hd A1 A2 (q2r_pos 1 ltac:(reflexivity)) (q2r_pos 1 ltac:(reflexivity))) as (r & Er & Lr & V).
  exists r. rewrite E. split; [exact Er|]. rewrite conv_head.
  - destruct (Nat.eq_dec (length r) 0) as [L0|L0].
    + exfalso. rewrite Lr in L0. assert (1 <= Qfloor (ir_duration p' * 1))%Z by (apply floor_inj; cbn [p' ir_duration]; change (inject_Z 1) with 1%Q; lra). lia.
    + rewrite (V 0%nat ltac:(lia)). reflexivity.
  - intros i Hi0. destruct (Nat.lt_ge_cases i (length r)) as [H|H]; [|apply nth_overflow, H]. rewrite (V i H). unfold ir_value, p'. cbn [ir_decay]. destruct i; [lia|reflexivity].
Qed.
Theorem C81_immediate_too_short p fs us : ir_decay p = ImmediateDecay -> known (ir_distribution p) -> (0 <= ir_duration p * fs < 1)%Q -> random_rir p fs us = Err IndexError.
Proof.
  intros He Hd [H0 H1]. unfold random_rir. rewrite (int_of_nonneg _ H0). assert (F := floor_nonneg _ H0).
  assert (G : (inject_Z (Qfloor (ir_duration p * fs)) < inject_Z 1)%Q) by (eapply Qle_lt_trans; [apply Qfloor_le|exact H1]). rewrite <- Zlt_Qlt in G.
  replace (Qfloor (ir_duration p * fs)) with 0%Z by lia. cbn [Z.ltb Z.compare Z.to_nat seq map]. rewrite (draw_known _ _ _ us 0 Hd). cbn [bind seq map]. rewrite He. reflexivity.
Qed.

(** 12 samples at 4 Hz, pauses of half a second every three quarters *)
Definition c81_p (start : bool) (q : pauses) : rand_params := mkRP Uniform (-1) 1 q (1 # 2) (3 # 4) (1 # 4) (1 # 2) start.
Example C81_example : exists y, generate_rand_signal (c81_p false PredefinedPauses) 12 4 false (fun _ => 1) (fun _ => (0, 0)%Q) = Ok y /\
  nth 2 y 0 = 1 /\ nth 3 y 0 = 0 /\ nth 4 y 0 = 0 /\ nth 5 y 0 = 1 /\ nth 8 y 0 = 0.
Proof.
  destruct (C81_regular_pauses (c81_p false PredefinedPauses) 12 4 (fun _ => 1) (fun _ => (0, 0)%Q) eq_refl (or_introl eq_refl)) as (y & E & L & V); try reflexivity; try discriminate.
  exists y. split; [exact E|]. cbn [c81_p rp_pause rp_spacing rp_distribution rp_min rp_max rp_start drawn] in V.
  assert (M := fun i => C81_regular_in_samples (3 # 4) (1 # 2) (3 # 4) 4 3 2 3 i ltac:(reflexivity) ltac:(reflexivity) ltac:(reflexivity) ltac:(lia)).
  assert (A : forall i, (i < 12)%nat -> ((3 <= i)%nat /\ ((i - 3) mod 5 < 2)%nat) -> nth i y 0 = 0) by (intros i Hi H; apply V; [exact Hi|apply M, H]).
  assert (B : forall i, (i < 12)%nat -> ~ ((3 <= i)%nat /\ ((i - 3) mod 5 < 2)%nat) -> nth i y 0 = 1).
  { intros i Hi H. destruct (V i Hi) as [_ V2]. rewrite V2; [Lra.lra|]. intros C. apply H, M, C. }
  repeat split; [apply B|apply A|apply A|apply B|apply A]; cbn; lia.
Qed.
Example C81_example_random : exists y stretches, generate_rand_signal (c81_p false RandomPauses) 12 4 false (fun _ => 1) (fun _ => (1, 1 # 2)%Q) = Ok y /\ length stretches = 2%nat /\
  silenced 12 (fun i => -1 + (1 - -1) * 1) stretches y.
Proof.
  destruct (C81_random_pauses (c81_p false RandomPauses) 12 4 (fun _ => 1) (fun _ => (1, 1 # 2)%Q) eq_refl (or_introl eq_refl)) as (y & st & E & L & S & _); try reflexivity; try discriminate.
  { intros i. cbn. repeat split; discriminate. }
  exists y, st. split; [exact E|]. split; [exact L|exact S].
Qed.
Example C81_example_ir : exists r, random_rir (mkIR Uniform (-1) 1 (1 # 5) ImmediateDecay (1 # 10)) 16000 (fun _ => 0) = Ok r /\ conv_at r [3; 5] 1 = 1 * 5.
Proof.
  destruct (C81_immediate (mkIR Uniform (-1) 1 (1 # 5) ImmediateDecay (1 # 10)) 16000 (fun _ => 0) [3; 5] 1 eq_refl (or_introl eq_refl) ltac:(discriminate)) as (r & E & C).
  exists r. split; [exact E|]. rewrite C. cbn. replace (-1 + (1 - -1) * 0) with (-1) by ring. rewrite Rabs_left by Lra.lra. ring.
Qed.

Example C81_example_irs : exists d n, random_impulse_responses (mkIR Normal (-1) 1 (1 # 5) ExponentialDecay (1 # 10)) 2 [1; 2]%nat 1 2 16000 (fun _ _ _ _ => 1) (fun _ _ _ _ => -1) = Ok (d, n) /\
  length d = 2%nat /\ length (nth 1 n []) = 2%nat.
Proof.
  destruct (C81_impulse_responses (mkIR Normal (-1) 1 (1 # 5) ExponentialDecay (1 # 10)) 16000 [1; 2]%nat 2 1 2 (fun _ _ _ _ => 1) (fun _ _ _ _ => -1)) as (d & n & E & V); try discriminate; try reflexivity.
  { right. reflexivity. }
  exists d, n. split; [exact E|]. destruct (V d 1%nat _ (or_introl eq_refl)) as [L _]. split; [exact L|]. destruct (V n 2%nat _ (or_intror eq_refl)) as [_ V2]. apply (V2 1%nat). lia.
Qed.

Print Assumptions C81_regular_pauses.
Print Assumptions C81_regular_in_samples.
Print Assumptions C81_random_pauses.
Print Assumptions C81_no_pauses.
Print Assumptions C81_other_distribution.
Print Assumptions C81_impulse_responses.
Print Assumptions C81_immediate.
Print Assumptions C81_immediate_too_short.
