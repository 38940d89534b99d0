(** Synchronous runs: the two broadcast schemes with a fixed length. *)
From Verif Require Import Base BaseFacts Sched SchedSpec SchedFacts SchedFacts4 SchedFacts5 InstSpec InstFacts Buffers BufSpec BufFacts SyncFacts SyncFacts2.
Open Scope Z_scope.

Lemma run_schedule_events {A} (zero : A) p nodes compress sched st :
  run_schedule zero p nodes compress sched st = run_events zero p nodes compress (events_of sched) st.
Proof.
  revert st. induction sched as [|i s IH]; intros st; [reflexivity|].
  unfold run_schedule, run_events, events_of in *. cbn [foldM flat_map]. rewrite foldM_app.
  assert (E : foldM (do_event zero p nodes compress (in_t i)) (in_evs i) st =
    foldM (fun (st : bstate A) (te : Z * (nat * evtype)) => do_event zero p nodes compress (fst te) st (snd te)) (map (fun e => (in_t i, e)) (in_evs i)) st).
  { clear IH. revert st. induction (in_evs i) as [|e es IH]; intros st; [reflexivity|]. cbn [foldM map fst snd].
    destruct (do_event zero p nodes compress (in_t i) st e); cbn [bind]; [apply IH | reflexivity]. }
  rewrite <- E. destruct (foldM (do_event zero p nodes compress (in_t i)) (in_evs i) st); cbn [bind]; [apply IH | reflexivity].
Qed.

Lemma pos_lt F s per i j : 0 < s -> 0 < per -> ((F + Z.of_nat i * s) * per < (F + Z.of_nat j * s) * per <-> (i < j)%nat).
Proof.
  intros Hs Hp. rewrite <- Z.mul_lt_mono_pos_r by exact Hp. rewrite <- Z.add_lt_mono_l, <- Z.mul_lt_mono_pos_r by exact Hs. lia.
Qed.
Lemma pos_inj F s per i j : 0 < s -> 0 < per -> (F + Z.of_nat i * s) * per = (F + Z.of_nat j * s) * per -> i = j.
Proof.
  intros Hs Hp E. pose proof (pos_lt F s per i j Hs Hp). pose proof (pos_lt F s per j i Hs Hp). lia.
Qed.

Section Counting.
  Variables (per N Ns L U : Z) (n : nat).
  Hypothesis Hper : 0 < per.
  Hypothesis HNs : 0 < Ns.
  Hypothesis HL : 0 < L.
  Variable evs : list tev.
  Hypothesis HS : StronglySorted before evs.
  Hypothesis HD : NoDup evs.
  Hypothesis HUp : forall t k, In (t, (k, Up)) evs <-> (k < n)%nat /\ grid per N Ns U t.

  Lemma up_count pre t k post j :
    evs = pre ++ (t, (k, Up)) :: post -> t = (N + Z.of_nat j * Ns) * per ->
    length (filter (is_ev k Up) pre) = j.
  Proof using Hper HNs HS HD HUp.
    clear HL L. intros E Et. rewrite E in HS, HD. assert (Hin := proj1 (HUp t k)). rewrite E in Hin.
    specialize (Hin ltac:(apply in_or_app; right; left; reflexivity)). destruct Hin as [Hk [i [Ei Hi]]].
    assert (i = j) by (eapply (pos_inj N Ns per); [exact HNs | exact Hper | congruence]). subst i.
    apply (count_by_set _ _ (fun i => ((N + Z.of_nat i * Ns) * per, (k, Up)))).
    - eapply NoDup_app_l; exact HD.
    - intros a b H. injection H as H. revert H. apply pos_inj; assumption.
    - intros [t' e']. rewrite is_ev_true. cbn [snd]. split.
      + intros [Hx ->]. apply (before_up_up t k pre post t' HS HD) in Hx. destruct Hx as [Hx Hlt].
        rewrite <- E in Hx. apply HUp in Hx. destruct Hx as [_ [i' [Ei' _]]]. exists i'. split; [apply (pos_lt N Ns per); [assumption.. | congruence] | congruence].
      + intros [i' [Hi' E']]. injection E' as Et' ->. split; [|reflexivity].
        apply (before_up_up t k pre post t' HS HD). split; [|rewrite Et', Et; apply pos_lt; assumption].
        rewrite <- E. apply HUp. split; [exact Hk|]. exists i'. split; [exact Et' | nia].
  Qed.

  Lemma bc_count pre t k post q F V m :
    evs = pre ++ (t, (k, Up)) :: post ->
    (forall t', In (t', (q, Bc)) evs <-> grid per F L V t') ->
    (forall i, (F + Z.of_nat i * L) * per <= t <-> (i < m)%nat) ->
    (forall i, (i < m)%nat -> F + Z.of_nat i * L < V) ->
    length (filter (is_ev q Bc) pre) = m.
  Proof using Hper HL HS HD.
    clear HUp HNs n U Ns N. intros E HB Hm HV. rewrite E in HS, HD.
    apply (count_by_set _ _ (fun i => ((F + Z.of_nat i * L) * per, (q, Bc)))).
    - eapply NoDup_app_l; exact HD.
    - intros a b H. injection H as H. revert H. apply pos_inj; assumption.
    - intros [t' e']. rewrite is_ev_true. cbn [snd]. split.
      + intros [Hx ->]. apply (before_irrefl_up t k _ pre post q t' HS HD eq_refl) in Hx. destruct Hx as [Hx Hle].
        rewrite <- E in Hx. apply HB in Hx. destruct Hx as [i [Ei _]]. exists i. split; [apply Hm; lia | congruence].
      + intros [i [Hi E']]. injection E' as Et' ->. split; [|reflexivity].
        apply (before_irrefl_up t k _ pre post q t' HS HD eq_refl). split; [|rewrite Et'; apply Hm; exact Hi].
        rewrite <- E. apply HB. exists i. split; [exact Et' | apply HV; exact Hi].
  Qed.
End Counting.

Lemma largest_multiple a b T : 0 < a -> 0 < b -> (b | a) -> T / a * a <= T / b * b.
Proof.
  intros Ha Hb [c ->]. set (q := T / (c * b)).
  pose proof (Z.mul_div_le T (c * b) Ha) as H1. fold q in H1.
  assert (q * c <= T / b) by (apply Z.div_le_lower_bound; nia). nia.
Qed.

Lemma cdiv_exact a b : 0 < b -> (b | a) -> cdiv a b * b = a.
Proof.
  intros Hb [c ->]. unfold cdiv. replace (c * b + b - 1) with (c * b + (b - 1)) by ring.
  rewrite Z.div_add_l by lia. rewrite Z.div_small by lia. lia.
Qed.

Lemma sync_fixed A (zero : A) tsort p nodes ordering_of compress per Nt :
  is_argsort tsort -> good_params p -> (p_whole p = true -> p_L p = p_Ns p) ->
  p_ti p = false -> (p_whole p = true \/ p_efficient p = false) ->
  (p_Ns p | p_N p) -> (p_L p | p_Ns p) -> (0 < Nt)%nat ->
  synchronous per Nt nodes -> symmetric_net (map nbrs nodes) ->
  (forall k t n, 0 <= n -> Z.of_nat (length (compress k t n)) = n) ->
  let a := if p_whole p then p_Ns p else p_N p in
  exists sched, initialize_events tsort p nodes ordering_of = Ok (sched, []) /\
    (forall t k, scheduled sched t k Up <->
       (k < length nodes)%nat /\ grid per (p_N p) (p_Ns p) (Z.of_nat (Nt - 1) / p_Ns p * p_Ns p) t) /\
    (forall pre t k post, events_of sched = pre ++ (t, (k, Up)) :: post ->
       exists st, run_events zero p nodes compress pre (init_state A nodes) = Ok st /\
         forall idx q b, link (map nbrs nodes) k idx q -> buffer_at (b_buf st) k idx b ->
           Z.of_nat (length b) = if Nat.eqb (event_count k Up pre) 0 then a else p_Ns p) /\
    exists st, run_schedule zero p nodes compress sched (init_state A nodes) = Ok st /\
      forall k nd, nth_error nodes k = Some nd ->
        flag_rows k (b_log st) = rows_expected (length (nbrs nd)) a (p_N p) (event_count k Up (events_of sched)).
Proof.
  intros Hsort Hgp Hwh Hti Heff HdN HdL HNt [Hper Hsync] Hnet Hcomp a.
  destruct Hgp as [HN [HNs HL]] eqn:Egp. clear Egp.
  assert (Hgn : forall nd, In nd nodes -> good_node nd /\ stamps nd <> []).
  { intros nd Hin. destruct (Hsync nd Hin) as [E1 E2]. fold (exact_clock per Nt) in E2. split; [split|].
    - rewrite E2. apply exact_clock_sorted; exact Hper.
    - rewrite E1. exact Hper.
    - rewrite E2. destruct Nt; [lia | discriminate]. }
  destruct (fc_run tsort p nodes ordering_of Hsort Hgp Hwh Hgn Hti Heff) as [sched [Es [S1 [S2 S3]]]].
  exists sched. split; [exact Es|].
  assert (HNsN : p_Ns p <= p_N p) by (apply Z.divide_pos_le; assumption).
  set (U := Z.of_nat (Nt - 1) / p_Ns p * p_Ns p).
  set (V := Z.of_nat (Nt - 1) / p_L p * p_L p).
  set (F := if p_whole p then p_N p else p_L p).
  set (evs := events_of sched).
  assert (Hsch : forall t k ty, In (t, (k, ty)) evs <-> scheduled sched t k ty).
  { intros t k ty. unfold evs. rewrite events_of_In. unfold scheduled. split; intros [i Hi]; exists i; exact Hi. }
  assert (HUp : forall t k, In (t, (k, Up)) evs <-> (k < length nodes)%nat /\ grid per (p_N p) (p_Ns p) U t).
  { intros t k. rewrite Hsch, S3. cbn [ev_first ev_sep]. rewrite cdiv_exact by assumption. split.
    - intros [_ [nd [s [Hnd Hs]]]]. destruct (Hsync nd (nth_error_In _ _ Hnd)) as [E1 E2]. split; [apply nth_error_Some; congruence|].
      apply (nominal_grid per Nt nd (p_N p) (p_Ns p) t Hper HNt HNs ltac:(lia) E1 E2). exists s. exact Hs.
    - intros [Hk Hg]. split; [left; reflexivity|]. destruct (nth_error nodes k) as [nd|] eqn:Hnd; [|apply nth_error_None in Hnd; lia].
      destruct (Hsync nd (nth_error_In _ _ Hnd)) as [E1 E2].
      apply (nominal_grid per Nt nd (p_N p) (p_Ns p) t Hper HNt HNs ltac:(lia) E1 E2) in Hg.
      destruct Hg as [s Hs]. exists nd, s. split; [reflexivity | exact Hs]. }
  assert (HBc : forall t k, In (t, (k, Bc)) evs <-> (k < length nodes)%nat /\ grid per F (p_L p) V t).
  { assert (HF : 0 <= F) by (unfold F; destruct (p_whole p); lia).
    intros t k. rewrite Hsch, S3. cbn [ev_first ev_sep]. fold F. split.
    - intros [_ [nd [s [Hnd Hs]]]]. destruct (Hsync nd (nth_error_In _ _ Hnd)) as [E1 E2]. split; [apply nth_error_Some; congruence|].
      apply (nominal_grid per Nt nd F (p_L p) t Hper HNt HL HF E1 E2). exists s. exact Hs.
    - intros [Hk Hg]. split; [right; reflexivity|]. destruct (nth_error nodes k) as [nd|] eqn:Hnd; [|apply nth_error_None in Hnd; lia].
      destruct (Hsync nd (nth_error_In _ _ Hnd)) as [E1 E2].
      apply (nominal_grid per Nt nd F (p_L p) t Hper HNt HL HF E1 E2) in Hg.
      destruct Hg as [s Hs]. exists nd, s. split; [reflexivity | exact Hs]. }
  assert (Hvalid : forall x, In x evs -> valid_ev nodes x).
  { intros [t [k ty]] Hx. assert (Hx' := Hx). apply Hsch, S3 in Hx'. destruct Hx' as [Hty [nd [s [Hnd _]]]].
    split; [simpl; apply nth_error_Some; congruence | exact Hty]. }
  destruct (events_of_sorted sched S1 (fun i Hi => proj2 (S2 i Hi))) as [HS HD]. fold evs in HS, HD.
  assert (Hsent : forall k idx q pre t post, link (map nbrs nodes) k idx q -> evs = pre ++ (t, (k, Up)) :: post ->
    Z.of_nat (length (sent q (hist A p nodes compress (map (fun _ => 0) nodes) pre))) =
    a + Z.of_nat (reads k (hist A p nodes compress (map (fun _ => 0) nodes) pre)) * p_Ns p).
  { intros k idx q pre t post HLk E.
    assert (Hvp : forall x, In x pre -> valid_ev nodes x) by (intros x Hx; apply Hvalid; rewrite E; apply in_or_app; left; exact Hx).
    rewrite sent_hist_fixed by assumption. rewrite reads_hist by exact Hvp.
    assert (Hin : In (t, (k, Up)) evs) by (rewrite E; apply in_or_app; right; left; reflexivity).
    apply HUp in Hin. destruct Hin as [Hk [j [Et Hj]]].
    rewrite (up_count per (p_N p) (p_Ns p) U (length nodes) Hper HNs evs HS HD HUp pre t k post j E Et).
    assert (Hq : (q < length nodes)%nat).
    { destruct HLk as [l [Hl Hi]]. destruct (proj1 Hnet _ _ Hl) as [_ [_ Hr]]. specialize (Hr q (nth_error_In _ _ Hi)). rewrite map_length in Hr. exact Hr. }
    assert (HUV : U <= V) by (apply largest_multiple; assumption).
    destruct (p_whole p) eqn:Ew.
    - assert (EL := Hwh eq_refl).
      rewrite (bc_count per (p_L p) Hper HL evs HS HD pre t k post q F V (S j) E).
      + unfold a. rewrite EL. lia.
      + intros t'. rewrite HBc. tauto.
      + intros i. rewrite Et. unfold F. rewrite EL. pose proof (pos_lt (p_N p) (p_Ns p) per j i HNs Hper). lia.
      + intros i Hi. unfold F. rewrite EL in *. nia.
    - destruct HdN as [cN HcN]. destruct HdL as [cL HcL].
      assert (0 < cN) by nia. assert (0 < cL) by nia.
      rewrite (bc_count per (p_L p) Hper HL evs HS HD pre t k post q F V (Z.to_nat ((cN + Z.of_nat j) * cL)) E).
      + unfold a. rewrite Z2Nat.id by nia. nia.
      + intros t'. rewrite HBc. tauto.
      + intros i. rewrite Et. unfold F.
        assert (EQ : p_N p + Z.of_nat j * p_Ns p = (cN + Z.of_nat j) * cL * p_L p) by nia. rewrite EQ.
        set (M := (cN + Z.of_nat j) * cL) in *.
        replace (p_L p + Z.of_nat i * p_L p) with ((1 + Z.of_nat i) * p_L p) by ring.
        split; intros HH.
        * assert ((1 + Z.of_nat i) * p_L p <= M * p_L p) by nia. assert (1 + Z.of_nat i <= M) by nia. lia.
        * assert (1 + Z.of_nat i <= M) by lia. nia.
      + intros i Hi. unfold F.
        assert (EQ : p_N p + Z.of_nat j * p_Ns p = (cN + Z.of_nat j) * cL * p_L p) by nia.
        set (M := (cN + Z.of_nat j) * cL) in *. assert (1 + Z.of_nat i <= M) by lia. nia. }
  split; [intros t k; rewrite <- Hsch; apply HUp|].
  destruct (sync_conclusion A zero p nodes compress Hcomp Hnet Hgp Hwh HNsN evs a Hvalid Hsent) as [C1 C2].
  split; [exact C1|]. destruct C2 as [st [E2 R2]]. exists st. split; [rewrite run_schedule_events; exact E2 | exact R2].
Qed.
