(** Synchronous networks: consecutive whole-chunk broadcasts. *)
From Verif Require Import Base BaseFacts Sched SchedSpec InstSpec Buffers BufSpec ChunkSpec Cx Online OnlineSpec OutSpec OutFacts OutFacts2 OutFacts3 SyncFacts SyncFacts2 DistSpec DistFacts2 LatestSpec LatestFacts4 LatestFacts5 LatestProps WholeSpec WholeFacts.
From Coq Require Import Reals Lra Psatz.
Local Open Scope Z_scope.

Lemma nodup_index {A} (l : list A) i j x : NoDup l -> nth_error l i = Some x -> nth_error l j = Some x -> i = j.
Proof. intros H Hi Hj. apply (proj1 (NoDup_nth_error l) H); [apply nth_error_Some; congruence|congruence]. Qed.

Lemma consecutive p nodes per Nt evs k m i : 0 < per -> 0 < p_L p -> sync_events p nodes per Nt evs -> 
  nth_error evs m = Some ((first_bc p + Z.of_nat i * p_L p) * per, (k, Bc)) ->
  match i with
  | O => no_broadcast k evs 0 m
  | S j => exists m', (m' < m)%nat /\ nth_error evs m' = Some ((first_bc p + Z.of_nat j * p_L p) * per, (k, Bc)) /\ no_broadcast k evs (S m') m
  end.
Proof.
  intros Hper HL [HUp HBc Hv HS HD] Hm.
  assert (T : forall a te, nth_error evs a = Some te -> is_bc k te = true -> exists l, te = ((first_bc p + Z.of_nat l * p_L p) * per, (k, Bc))).
  { intros a te Ha B. apply is_bc_true in B. pose proof (nth_error_In _ _ Ha) as HI. rewrite B in HI. apply HBc in HI. destruct HI as [_ [l [El _]]]. exists l. rewrite B, El. reflexivity. }
  assert (O : forall a l, nth_error evs a = Some ((first_bc p + Z.of_nat l * p_L p) * per, (k, Bc)) -> (a < m)%nat -> (l < i)%nat).
  { intros a l Ha Hlt. pose proof (sorted_times _ HS a m _ _ Hlt Ha Hm) as Hle. cbn [fst] in Hle. rewrite <- Z.mul_le_mono_pos_r in Hle by exact Hper.
    assert (l <> i)%nat by (intros ->; pose proof (nodup_index _ _ _ _ HD Ha Hm); lia). nia. }
  destruct i as [|j].
  - intros a te Ha Hte. destruct (is_bc k te) eqn:B; [|reflexivity]. destruct (T a te Hte B) as (l & ->). specialize (O a l Hte ltac:(lia)). lia.
  - assert (In ((first_bc p + Z.of_nat j * p_L p) * per, (k, Bc)) evs) as HI.
    { apply HBc. pose proof (nth_error_In _ _ Hm) as HI. apply HBc in HI. destruct HI as [Hk [l [El Hl]]]. split; [exact Hk|]. exists j. split; [reflexivity|].
      apply Z.mul_reg_r in El; [|lia]. nia. }
    apply In_nth_error in HI. destruct HI as (m' & Hm').
    assert (Hlt : (m' < m)%nat).
    { destruct (Nat.lt_total m' m) as [X|[X|X]]; [exact X| |].
      - subst m'. rewrite Hm in Hm'. exfalso. assert (E : (first_bc p + Z.of_nat (S j) * p_L p) * per = (first_bc p + Z.of_nat j * p_L p) * per) by congruence. apply Z.mul_reg_r in E; [nia|lia].
      - exfalso. pose proof (sorted_times _ HS m m' _ _ X Hm Hm') as Hle. cbn [fst] in Hle. rewrite <- Z.mul_le_mono_pos_r in Hle by exact Hper. nia. }
    exists m'. split; [exact Hlt|]. split; [exact Hm'|]. intros a te Ha Hte. destruct (is_bc k te) eqn:B; [|reflexivity]. exfalso. destruct (T a te Hte B) as (l & ->).
    specialize (O a l Hte ltac:(lia)).
    pose proof (sorted_times _ HS m' a _ _ ltac:(lia) Hm' Hte) as Hle. cbn [fst] in Hle. rewrite <- Z.mul_le_mono_pos_r in Hle by exact Hper.
    assert (l = j) as -> by nia. pose proof (nodup_index _ _ _ _ HD Hm' Hte). lia.
Qed.

Section Sync.
  Variables (c : ocfg) (y : list (list (list R))) (q T k : nat) (sched : list instant) (nsens : list nat) (ref : nat) (per : Z) (g : nat -> R).
  Hypothesis HN : p_N (o_p c) = Z.of_nat (2 * q).
  Hypothesis Hq : (0 < q)%nat.
  Hypothesis HNs : p_Ns (o_p c) = Z.of_nat q.
  Hypothesis HL : p_L (o_p c) = Z.of_nat q.
  Hypothesis Hwh : p_whole (o_p c) = true.
  Hypothesis Hh : length (o_h c) = (2 * q)%nat.
  Hypothesis Hfh : o_f c = o_h c.
  Hypothesis Hnz : Forall (fun v => v <> 0%R) (o_h c).
  Hypothesis Hy : Forall (fun col => length col = T) (nth k y []).
  Hypothesis Hper : 0 < per.
  Hypothesis Hclk : period (nth k (o_nodes c) (mkNode 1 [] [])) = per.
  Hypothesis Hev : sync_events (o_p c) (o_nodes c) per T (flat_events sched).
  Hypothesis Hg : forall i, flat q (o_ext c k i) (length (nth k y [])) g.
  Let st0 := online_init 0%R c nsens ref T.
  Let evs := flat_events sched.

  Lemma fused_flat i e x j : fused_frame c y q k i e x -> (j < 2 * q)%nat -> (x j = nth j (o_h c) 0 * mixed y k g (e - Z.of_nat (2 * q) + Z.of_nat j))%R.
  Proof. intros F Hj. exact (flat_filtered q (o_h c) _ _ g _ x Hq (Hg i) F j Hj). Qed.

  Lemma block_mixed m i s r : online_run c y sched st0 = Ok r -> nth_error evs m = Some ((first_bc (o_p c) + Z.of_nat i * p_L (o_p c)) * per, (k, Bc)) ->
    reached c y sched st0 (S m) = Ok s ->
    forall j, (j < q)%nat -> (nth j (chunk s k) 0 = start_gain (o_h c) q (Z.of_nat (i * q + j)) * mixed y k g (Z.of_nat (i * q + j)))%R.
  Proof.
    intros Hr Hm Hs j Hj.
    assert (FB : first_bc (o_p c) = Z.of_nat (2 * q)) by (unfold first_bc; rewrite Hwh; exact HN).
    assert (RNG : forall a i, nth_error evs a = Some ((first_bc (o_p c) + Z.of_nat i * p_L (o_p c)) * per, (k, Bc)) -> 0 <= Z.of_nat (2 * q + i * q) <= Z.of_nat T).
    { intros a l Ha. apply nth_error_In in Ha. apply (se_bc _ _ _ _ _ Hev) in Ha. destruct Ha as [_ [l' [El Hl]]]. apply Z.mul_reg_r in El; [|lia]. rewrite <- El, FB, HL in Hl.
      pose proof (Z.mul_div_le (Z.of_nat (T - 1)) (Z.of_nat q) ltac:(lia)). lia. }
    assert (DV : forall i, (first_bc (o_p c) + Z.of_nat i * p_L (o_p c)) * per / per = Z.of_nat (2 * q + i * q)) by (intros l; rewrite Z.div_mul by lia; rewrite FB, HL; lia).
    destruct (chunks_sent c y q T k sched nsens ref HN Hq HNs Hwh Hh Hy m _ r Hr Hm) as (s' & x & E & F & _ & _ & A & B).
    { rewrite Hclk, DV. exact (RNG _ _ Hm). }
    fold st0 in E. rewrite Hs in E. injection E as <-. rewrite Hclk, DV in F.
    assert (NZ : forall a, (a < 2 * q)%nat -> nth a (o_h c) 0%R <> 0%R) by (intros a Ha; rewrite Forall_forall in Hnz; apply Hnz, nth_In; lia).
    pose proof (NZ j ltac:(lia)) as NZ1. pose proof (NZ (q + j)%nat ltac:(lia)) as NZ2.
    pose proof (fused_flat _ _ x j F ltac:(lia)) as X. replace (Z.of_nat (2 * q + i * q) - Z.of_nat (2 * q) + Z.of_nat j) with (Z.of_nat (i * q + j)) in X by lia.
    pose proof (consecutive (o_p c) (o_nodes c) per T evs k m i Hper ltac:(lia) Hev Hm) as C.
    destruct i as [|i].
    - rewrite (A C j Hj), X, Hfh. unfold start_gain. cbn [Nat.mul Nat.add]. destruct (Z.ltb_spec (Z.of_nat j) (Z.of_nat q)); [|lia]. rewrite Nat2Z.id. ring.
    - destruct C as (m' & Hlt & Hm' & Nb). destruct (B m' _ Hlt Hm' Nb) as (s' & x' & E' & F' & A' & S1 & S2).
      { rewrite Hclk, DV. exact (RNG _ _ Hm'). }
      rewrite Hclk, DV in F'. pose proof (fused_flat _ _ x' (q + j) F' ltac:(lia)) as X'. replace (Z.of_nat (2 * q + i * q) - Z.of_nat (2 * q) + Z.of_nat (q + j)) with (Z.of_nat (S i * q + j)) in X' by lia.
      set (v := mixed y k g (Z.of_nat (S i * q + j))) in *.
      unfold start_gain. destruct (Z.ltb_spec (Z.of_nat (S i * q + j)) (Z.of_nat q)); [nia|].
      assert (D : silent (chunk s' k) \/ ~ silent (chunk s' k)).
      { destruct (Wola.all_zero (chunk s' k)) eqn:AZ; [left; exact (proj1 (WolaFacts.all_zero_true _) AZ)|right; intros S; apply WolaFacts.all_zero_true in S; congruence]. }
      destruct D as [S|S].
      + rewrite (S1 S j Hj), X. 
        assert (Z0 : nth (q + j) (chunk s' k) 0%R = 0%R).
        { destruct (Nat.lt_ge_cases (q + j) (length (chunk s' k))) as [L|L]; [apply S, nth_In, L|apply nth_overflow, L]. }
        rewrite (A' (q + j)%nat ltac:(lia)), X', Hfh in Z0. assert (v = 0)%R as ->; [|ring].
        apply Rmult_integral in Z0. destruct Z0 as [Z0|Z0]; [contradiction|]. apply Rmult_integral in Z0. destruct Z0; [contradiction|assumption].
      + rewrite (S2 S j Hj), X, X', Hfh. field. nra.
  Qed.
End Sync.
