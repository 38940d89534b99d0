(** Alignment of received frames in synchronous networks. *)
From Verif Require Import Base BaseFacts Sched SchedSpec SchedFacts SchedFacts4 SchedFacts5 InstSpec InstFacts Buffers BufSpec BufFacts SyncFacts SyncFacts2 SyncFacts3 Online OnlineSpec OutSpec OutFacts OutFacts2 OutFacts3 OutFacts4 DistSpec DistFacts2 LatestSpec LatestFacts LatestFacts2 LatestFacts3 LatestFacts4.
From Coq Require Import Reals.
Open Scope Z_scope.

Lemma filter_sorted {A} (R : A -> A -> Prop) P l : StronglySorted R l -> StronglySorted R (filter P l).
Proof.
  induction 1 as [|x l H IH HF]; [constructor|]. cbn. destruct (P x); [|exact IH]. constructor; [exact IH|].
  rewrite Forall_forall in *. intros y Hy. apply filter_In in Hy. now apply HF.
Qed.

Lemma bc_times_sorted q evs : StronglySorted before evs -> NoDup evs -> StronglySorted Z.lt (map fst (filter (is_bc q) evs)).
Proof.
  intros HS HD. apply (filter_sorted _ (is_bc q)) in HS. apply (NoDup_filter (is_bc q)) in HD.
  assert (HB : forall x, In x (filter (is_bc q) evs) -> is_bc q x = true) by (intros x Hx; apply filter_In in Hx; tauto).
  revert HS HD HB. generalize (filter (is_bc q) evs). induction l as [|x l IH]; intros HS HD HB; [constructor|].
  inversion HS as [|? ? S1 HF]; subst. inversion HD as [|? ? N1 D1]; subst. cbn [map]. constructor; [apply IH; auto; intros; apply HB; now right|].
  rewrite Forall_forall in *. intros t Ht. apply in_map_iff in Ht. destruct Ht as (x' & <- & Hx').
  assert (E1 := is_bc_true _ _ (HB x (or_introl eq_refl))). assert (E2 := is_bc_true _ _ (HB x' (or_intror Hx'))).
  destruct (HF x' Hx') as [Hlt|[He _]]; [exact Hlt|]. exfalso. apply N1. rewrite E1, He, <- E2. exact Hx'.
Qed.

Section Align.
  Variables (c : ocfg) (y : list (list (list R))) (sched : list instant) (nsens : list nat) (ref T : nat) (per : Z) (Nt : nat).
  Let p := o_p c.
  Let nodes := o_nodes c.
  Let nb := map nbrs nodes.
  Let st0 : ostate R := online_init 0%R c nsens ref T.
  Let evs := flat_events sched.
  Hypothesis Hgp : good_params p.
  Hypothesis Hwh : p_whole p = true -> p_L p = p_Ns p.
  Hypothesis Heff : p_whole p = true \/ p_efficient p = false.
  Hypothesis HdN : (p_Ns p | p_N p).
  Hypothesis HdL : (p_L p | p_Ns p).
  Hypothesis Hper : 0 < per.
  Hypothesis Hclk : forall nd, In nd nodes -> period nd = per.
  Hypothesis Hnet : symmetric_net nb.
  Hypothesis Hev : sync_events p nodes per Nt evs.

  Lemma node_period k : (k < length nodes)%nat -> period (nth k nodes (mkNode 1 [] [])) = per.
  Proof. intros H. apply Hclk, nth_In, H. Qed.

  Lemma frame_end_at k a : (k < length nodes)%nat -> frame_end c k (a * per) = a - (if p_whole p then p_N p - p_Ns p else 0).
  Proof. intros H. unfold frame_end. fold p nodes. rewrite node_period, Z.div_mul by (assumption || lia). reflexivity. Qed.

  (** Update of node [k] at sample [a]: the broadcasts of node [q] up to then. *)
  Lemma bcs_before_update m t k q : nth_error evs m = Some (t, (k, Up)) -> (q < length nodes)%nat ->
    (k < length nodes)%nat /\ exists a M, t = a * per /\ p_N p <= a /\ Z.of_nat M * blen c = frame_end c k t /\
      map fst (filter (is_bc q) (firstn m evs)) = map (fun i => (first_bc p + Z.of_nat i * p_L p) * per) (seq 0 M).
  Proof.
    intros Hm Hq. destruct Hev as [HUp HBc Hvalid HS HD]. destruct Hgp as (HN & HNs & HL).
    assert (SP : evs = firstn m evs ++ (t, (k, Up)) :: skipn (S m) evs).
    { rewrite <- (firstn_skipn m evs) at 1. f_equal. clear -Hm. revert Hm. generalize evs. induction m as [|m IH]; intros [|a l] H; try discriminate; [injection H as ->; reflexivity|]. cbn [skipn]. exact (IH l H). }
    assert (Hin : In (t, (k, Up)) evs) by (apply nth_error_In in Hm; exact Hm).
    apply HUp in Hin. destruct Hin as [Hk [j [Et Hj]]]. split; [exact Hk|].
    set (a := p_N p + Z.of_nat j * p_Ns p) in *. set (U := Z.of_nat (Nt - 1) / p_Ns p * p_Ns p) in *. set (V := Z.of_nat (Nt - 1) / p_L p * p_L p) in *.
    assert (HUV : U <= V) by (apply largest_multiple; assumption).
    destruct HdN as [cN HcN]. destruct HdL as [cL HcL]. assert (0 < cN) by nia. assert (0 < cL) by nia.
    set (M := if p_whole p then S j else Z.to_nat ((cN + Z.of_nat j) * cL)).
    assert (HM : Z.of_nat M * blen c = frame_end c k t).
    { rewrite Et, frame_end_at by exact Hk. unfold M, blen. fold p. destruct (p_whole p); [unfold a; lia|]. rewrite Z2Nat.id by nia. unfold a. nia. }
    exists a, M. split; [exact Et|]. split; [unfold a; nia|]. split; [exact HM|].
    assert (HM1 : forall i, (first_bc p + Z.of_nat i * p_L p) * per <= t <-> (i < M)%nat).
    { intros i. rewrite Et. rewrite <- Z.mul_le_mono_pos_r by exact Hper. unfold M, first_bc, a. destruct (p_whole p) eqn:Ew.
      - rewrite (Hwh eq_refl). nia.
      - assert (EQ : p_N p + Z.of_nat j * p_Ns p = (cN + Z.of_nat j) * cL * p_L p) by nia. rewrite EQ.
        set (K := (cN + Z.of_nat j) * cL) in *.
        replace (p_L p + Z.of_nat i * p_L p) with ((1 + Z.of_nat i) * p_L p) by ring. rewrite <- Z.mul_le_mono_pos_r by exact HL. lia. }
    assert (HM2 : forall i, (i < M)%nat -> first_bc p + Z.of_nat i * p_L p < V).
    { intros i Hi. apply HM1 in Hi. rewrite Et, <- Z.mul_le_mono_pos_r in Hi by exact Hper. lia. }
    apply sorted_same.
    - apply bc_times_sorted; [|eapply NoDup_app_l; rewrite SP in HD; exact HD].
      rewrite SP in HS. apply StronglySorted_app_inv in HS. tauto.
    - rewrite (map_ext _ (fun i => first_bc p * per + Z.of_nat i * (p_L p * per))) by (intros; ring). apply progression_sorted. nia.
    - intros x. split.
      + intros Hx. apply in_map_iff in Hx. destruct Hx as (te & <- & Hx). apply filter_In in Hx. destruct Hx as [Hx HB]. apply is_bc_true in HB. rewrite HB in Hx.
        apply (before_irrefl_up t k _ (firstn m evs) (skipn (S m) evs) q (fst te)) in Hx; [|rewrite <- SP; assumption|rewrite <- SP; assumption|reflexivity].
        rewrite <- SP in Hx. destruct Hx as [Hx Hle]. apply HBc in Hx. destruct Hx as [_ [i [Ei _]]].
        apply in_map_iff. exists i. split; [symmetry; exact Ei|]. apply in_seq. rewrite Ei in Hle. apply HM1 in Hle. lia.
      + intros Hx. apply in_map_iff in Hx. destruct Hx as (i & <- & Hi). apply in_seq in Hi.
        apply in_map_iff. exists ((first_bc p + Z.of_nat i * p_L p) * per, (q, Bc)). split; [reflexivity|]. apply filter_In. split; [|unfold is_bc; cbn; apply Nat.eqb_refl].
        apply (before_irrefl_up t k _ (firstn m evs) (skipn (S m) evs) q ((first_bc p + Z.of_nat i * p_L p) * per)); [rewrite <- SP; assumption|rewrite <- SP; assumption|reflexivity|].
        rewrite <- SP. split; [|apply HM1; lia]. apply HBc. split; [exact Hq|]. exists i. split; [reflexivity|]. apply HM2. lia.
  Qed.

  Lemma block_length m te s s' q : reached c y sched st0 m = Ok s -> online_event c y s te = Ok s' -> is_bc q te = true -> length (block c q s') = Z.to_nat (blen c).
  Proof.
    intros E1 E B. destruct Hgp as (HN & HNs & HL).
    destruct (event_op c y ltac:(fold p; lia) te s s') as (o & l & _ & _ & _ & _ & O5 & O6); [rewrite (zl_length c y sched nsens ref T m s E1); lia|exact E|].
    unfold block, blen. change (p_whole (o_p c)) with (p_whole p). change (p_efficient (o_p c)) with (p_efficient p) in O6. change (p_whole (o_p c)) with (p_whole p) in O5, O6. change (p_Ns (o_p c)) with (p_Ns p). change (p_N (o_p c)) with (p_N p) in O5. change (p_L (o_p c)) with (p_L p) in *. destruct (p_whole p) eqn:Hw.
    - specialize (O5 q B eq_refl). rewrite firstn_length_le; [reflexivity|]. assert (p_Ns p <= p_N p) by (apply Z.divide_pos_le; assumption). lia.
    - destruct Heff as [X|X]; [discriminate|]. specialize (O6 q B eq_refl X). lia.
  Qed.

  Lemma blen_pos : 0 < blen c.
  Proof. destruct Hgp as (HN & HNs & HL). unfold blen. fold p. destruct (p_whole p); lia. Qed.

  Lemma samples_sent_blocks q m : samples_sent c y sched st0 q m =
    flat_map (fun j => match reached c y sched st0 (S j) with Ok s => block c q s | Err _ => [] end) (bc_before q evs m).
  Proof.
    induction m as [|m IH]; [reflexivity|]. rewrite samples_sent_S, IH. unfold bc_before. rewrite seq_S, filter_app, flat_map_app. f_equal.
    cbn [Nat.add filter]. fold evs. destruct (nth_error evs m) as [te|]; [|reflexivity]. destruct (is_bc q te); [|reflexivity]. cbn [flat_map]. now rewrite app_nil_r.
  Qed.

  Lemma aligned m t k idx q s i : nth_error evs m = Some (t, (k, Up)) -> link nb k idx q -> reached c y sched st0 (S m) = Ok s ->
    (i < Z.to_nat (p_N p))%nat ->
    let n := frame_end c k t - p_N p + Z.of_nat i in
    (n < 0 -> nth i (received_frame s k idx) 0%R = 0%R) /\
    (0 <= n -> exists m' t' s', (m' < m)%nat /\ nth_error evs m' = Some (t', (q, Bc)) /\ reached c y sched st0 (S m') = Ok s' /\
       frame_end c q t' - blen c <= n < frame_end c q t' /\ t' = (first_bc p + n / blen c * p_L p) * per /\
       nth i (received_frame s k idx) 0%R = nth (Z.to_nat (n - (frame_end c q t' - blen c))) (block c q s') 0%R).
  Proof.
    intros Hm HLk E Hi n. pose proof Hgp as (HN & HNs & HL). pose proof blen_pos as HB.
    assert (Hq : (q < length nodes)%nat).
    { destruct HLk as [l [Hl Hx]]. destruct (proj1 Hnet _ _ Hl) as [_ [_ Hr]]. specialize (Hr q (nth_error_In _ _ Hx)). unfold nb in Hr. rewrite map_length in Hr. exact Hr. }
    destruct (bcs_before_update m t k q Hm Hq) as (Hk & a & M & Et & Ha & HM & Htimes).
    rewrite (frame_received c y sched nsens ref T ltac:(fold p; lia) m t k s idx q ltac:(assumption) Hnet HLk Hm E). fold st0 p.
    rewrite nth_latest by exact Hi. rewrite samples_sent_blocks.
    set (f := fun j => match reached c y sched st0 (S j) with Ok s => block c q s | Err _ => [] end). set (ms := bc_before q evs m).
    assert (Lms : length ms = M).
    { assert (X := f_equal (@length _) (bc_before_events q evs m)). rewrite !map_length in X. fold ms in X. rewrite X, <- (map_length fst), Htimes, map_length, seq_length. reflexivity. }
    assert (Hms : forall j, In j ms -> (j < m)%nat /\ exists te, nth_error evs j = Some te /\ is_bc q te = true).
    { intros j Hj. apply filter_In in Hj. destruct Hj as [H1 H2]. apply in_seq in H1. split; [lia|]. destruct (nth_error evs j) as [te|]; [eauto|discriminate]. }
    assert (RJ : forall j, (j < m)%nat -> exists sj, reached c y sched st0 (S j) = Ok sj) by (intros j Hj; apply (reached_pre c y sched st0 (S m) (S j) s); [lia|exact E]).
    assert (Lf : forall j, In j ms -> length (f j) = Z.to_nat (blen c)).
    { intros j Hj. destruct (Hms j Hj) as (H1 & te & H2 & H3). destruct (RJ j H1) as (sj & Ej). unfold f. rewrite Ej.
      pose proof Ej as Ej'. rewrite reached_S in Ej'. apply bind_ok in Ej'. destruct Ej' as (s1 & E1 & E2). fold evs in E2. rewrite H2 in E2. exact (block_length j te s1 sj q E1 E2 H3). }
    destruct (nth_blocks f (Z.to_nat (blen c)) ms ltac:(lia) Lf) as [LL VV]. rewrite LL, Lms.
    assert (LM : Z.of_nat (M * Z.to_nat (blen c)) = frame_end c k t) by (rewrite Nat2Z.inj_mul, Z2Nat.id by lia; exact HM).
    split; intros Hn.
    - destruct (Nat.ltb_spec (M * Z.to_nat (blen c) + i) (Z.to_nat (p_N p))); [reflexivity|]. unfold n in Hn. lia.
    - destruct (Nat.ltb_spec (M * Z.to_nat (blen c) + i) (Z.to_nat (p_N p))); [unfold n in Hn; lia|].
      assert (En : (M * Z.to_nat (blen c) + i - Z.to_nat (p_N p))%nat = Z.to_nat n) by (unfold n; lia). rewrite En.
      assert (Hlt : (Z.to_nat n < M * Z.to_nat (blen c))%nat) by (unfold n; lia).
      rewrite (VV (Z.to_nat n) 0%R 0%nat) by (rewrite Lms; exact Hlt).
      set (b := (Z.to_nat n / Z.to_nat (blen c))%nat).
      assert (Hb : (b < M)%nat) by (apply Nat.div_lt_upper_bound; lia).
      assert (Eb : Z.of_nat b = n / blen c) by (unfold b; rewrite Nat2Z.inj_div, !Z2Nat.id by lia; reflexivity).
      assert (Hin : In (nth b ms 0%nat) ms) by (apply nth_In; lia).
      destruct (Hms _ Hin) as (H1 & te & H2 & H3). destruct (RJ _ H1) as (sj & Ej).
      assert (Et' : fst te = (first_bc p + n / blen c * p_L p) * per).
      { assert (X := f_equal (fun l => nth b (map (option_map fst) l) None) (bc_before_events q evs m)). cbv beta in X. rewrite !map_map in X. fold ms in X.
        rewrite (nth_indep _ None (option_map fst (nth_error evs 0%nat))) in X by (rewrite map_length; lia).
        rewrite (map_nth (fun x => option_map fst (nth_error evs x)) ms 0%nat b), H2 in X. cbn [option_map] in X.
        rewrite <- (map_map fst Some), Htimes, map_map in X.
        rewrite (nth_indep _ None (Some ((first_bc p + Z.of_nat 0 * p_L p) * per))) in X by (rewrite map_length, seq_length; lia).
        rewrite (map_nth (fun x => Some ((first_bc p + Z.of_nat x * p_L p) * per)) (seq 0 M) 0%nat b), seq_nth in X by lia. cbn [Nat.add] in X.
        injection X as X. rewrite X, Eb. reflexivity. }
      assert (FE : frame_end c q (fst te) = (n / blen c + 1) * blen c).
      { rewrite Et', frame_end_at by exact Hq. unfold first_bc, blen. fold p. destruct (p_whole p) eqn:Hw; [rewrite (Hwh eq_refl)|]; ring. }
      exists (nth b ms 0%nat), (fst te), sj. split; [exact H1|]. split; [rewrite H2, (is_bc_true _ _ H3) at 1; reflexivity|]. split; [exact Ej|].
      pose proof (Z.div_mod n (blen c) ltac:(lia)) as DM. pose proof (Z.mod_pos_bound n (blen c) HB).
      split; [rewrite FE; lia|]. split; [exact Et'|]. unfold f. rewrite Ej. f_equal.
      rewrite FE. replace (n - ((n / blen c + 1) * blen c - blen c)) with (n mod blen c) by lia.
      rewrite Z2Nat.inj_mod by lia. reflexivity.
  Qed.
End Align.
