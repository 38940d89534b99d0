(** Complete runs of synchronous networks do not fail. *)
From Verif Require Import Base BaseFacts Sched SchedSpec SchedFacts SchedFacts4 SchedFacts5 InstSpec InstFacts Buffers BufSpec BufFacts BufNat SyncFacts SyncFacts2 SyncFacts3 Online OnlineSpec OutSpec OutFacts OutFacts2 OutFacts3 OutFacts4 DistSpec DistFacts2 LatestSpec LatestFacts LatestFacts2 LatestFacts3 LatestFacts4 LatestFacts5 CompleteFacts CompleteFacts2.
From Coq Require Import Reals.
Local Open Scope Z_scope.

Lemma read_columns {A} (zero : A) nb N Ns k b b' : 0 < N -> read_buffers zero nb N Ns k b = Ok b' ->
  Forall (fun col => Z.of_nat (length col) = N) (nth k (b_z b') []).
Proof.
  intros HN E. unfold read_buffers in E.
  apply bind_ok in E. destruct E as (nk & _ & E). apply bind_ok in E. destruct E as (bk & _ & E). apply bind_ok in E. destruct E as (zk & Hzk & E). apply bind_ok in E. destruct E as (ik & _ & E).
  apply bind_ok in E. destruct E as (cols & Hc & E). injection E as <-. cbn [b_z]. destruct (get_nth _ _ _ [] Hzk) as [_ L]. rewrite nth_upd_eq by exact L.
  rewrite Forall_map. revert Hc. generalize (seq 0 (length nk)). intros l. revert cols. induction l as [|a l IH]; intros cols Hc; cbn in Hc; [injection Hc as <-; constructor|].
  apply bind_ok in Hc. destruct Hc as (x & Hx & Hc). apply bind_ok in Hc. destruct Hc as (xs & Hxs & Hc). injection Hc as <-. constructor; [|apply IH; exact Hxs].
  apply bind_ok in Hx. destruct Hx as (b0 & _ & Hx). apply bind_ok in Hx. destruct Hx as (pz & _ & Hx). destruct x as [fr fl]. apply assemble_spec in Hx; [|exact HN]. apply Hx.
Qed.

Lemma completes tsort c y nsens q T ref ordering_of per :
  let p := o_p c in
  consistent c y nsens q T ->
  is_argsort tsort -> good_params p -> p_ti p = false ->
  (p_whole p = true -> p_L p = p_Ns p /\ p_N p = 2 * p_Ns p) -> (p_whole p = false -> p_efficient p = false) ->
  (p_Ns p | p_N p) -> (p_L p | p_Ns p) -> (0 < T)%nat ->
  synchronous per T (o_nodes c) -> symmetric_net (map nbrs (o_nodes c)) ->
  exists sched r, initialize_events tsort p (o_nodes c) ordering_of = Ok (sched, []) /\
    sync_events p (o_nodes c) per T (flat_events sched) /\
    online_run c y sched (online_init 0%R c nsens ref T) = Ok r.
Proof.
  intros p Hc Hsort Hgp Hti Hwh Hfew HdN HdL HT Hsync Hnet.
  assert (Hwh1 : p_whole p = true -> p_L p = p_Ns p) by (intros H; apply (Hwh H)).
  assert (Hwh2 : p_whole p = true -> p_N p = 2 * p_Ns p) by (intros H; apply (Hwh H)).
  assert (Heff : p_whole p = true \/ p_efficient p = false) by (destruct (p_whole p); auto).
  destruct (sync_schedule tsort p (o_nodes c) ordering_of per T Hsort Hgp Hwh1 Hti Heff HdN HT Hsync) as (sched & Es & Hev).
  destruct (sync_fixed unit tt tsort p (o_nodes c) ordering_of blank per T Hsort Hgp Hwh1 Hti Heff HdN HdL HT Hsync Hnet) as (sched' & Es' & _ & _ & ub & Eu & _).
  { intros k t n Hn. unfold blank. rewrite repeat_length. lia. }
  rewrite Es in Es'. injection Es' as <-. rewrite run_schedule_events in Eu.
  change (events_of sched) with (flat_events sched) in *.
  pose proof Hgp as (HN & HNs & HL). destruct Hsync as [Hper Hsync].
  pose proof (cs_nodes _ _ _ _ _ Hc) as LN.
  assert (PER : forall k, (k < length (o_nodes c))%nat -> period (nth k (o_nodes c) (mkNode 1 [] [])) = per) by (intros k Hk; apply Hsync, nth_In, Hk).
  assert (HNsN : p_Ns p <= p_N p) by (apply Z.divide_pos_le; assumption).
  assert (HLN : p_L p <= p_N p) by (apply Z.le_trans with (p_Ns p); [apply Z.divide_pos_le; assumption|exact HNsN]).
  assert (D : forall x, 0 < x -> Z.of_nat (T - 1) / x * x <= Z.of_nat T) by (intros x Hx; pose proof (Z.mul_div_le (Z.of_nat (T - 1)) x Hx); lia).
  assert (G : forall evs s ub, (forall e, In e evs -> In e (flat_events sched)) -> good_state c y q T s -> run_events tt p (o_nodes c) blank evs (forget (os_b s)) = Ok ub ->
    exists r, foldM (online_event c y) evs s = Ok r).
  { clear Eu ub. induction evs as [|[t [k ty]] evs IH]; intros s ub Hin Gs Eu; [exists s; reflexivity|].
    unfold run_events in Eu. cbn [foldM] in Eu. apply bind_ok in Eu. destruct Eu as (u1 & E1 & Eu). cbn [fst snd] in E1. cbn [foldM].
    assert (Hthis := Hin _ (or_introl eq_refl)). destruct Hev as [HUp HBc Hvalid _ _]. destruct (Hvalid _ Hthis) as [Hk Hty]. cbn [fst snd] in Hk, Hty.
    assert (Hk' : (k < length y)%nat) by lia.
    assert (S1 : exists s1, online_event c y s (t, (k, ty)) = Ok s1 /\ good_state c y q T s1 /\ forget (os_b s1) = u1).
    { destruct Hty as [->| ->]; unfold do_event in E1; cbn [fst snd] in E1; unfold online_event; cbn [fst snd].
      - apply (update_ok c y nsens q T Hc Hgp Hwh2 (fun Hw => Logic.conj (Hfew Hw) HLN) t k s u1 Gs Hk'); [|intros b' Eb; exact (read_columns _ _ _ _ _ _ _ HN Eb)|exact E1].
        apply HUp in Hthis. destruct Hthis as [_ [j [-> Hj]]]. specialize (D (p_Ns p) HNs). unfold frame_end. fold p. rewrite PER, Z.div_mul by (assumption || lia).
        assert (0 <= Z.of_nat j * p_Ns p) by nia. destruct (p_whole p) eqn:Ew; lia.
      - apply (broadcast_ok c y nsens q T Hc Hgp Hwh2); [intros Hw; split; [apply Hfew, Hw|exact HLN]|exact Gs|exact Hk'| |exact E1].
        apply HBc in Hthis. destruct Hthis as [_ [j [-> Hj]]]. specialize (D (p_L p) HL). rewrite PER, Z.div_mul by (assumption || lia).
        assert (0 <= Z.of_nat j * p_L p) by nia. unfold first_bc in *. destruct (p_whole p); lia. }
    destruct S1 as (s1 & -> & G1 & <-). cbn [bind]. apply (IH s1 ub); [intros e He; apply Hin; now right|exact G1|exact Eu]. }
  destruct (G (flat_events sched) (online_init 0%R c nsens ref T) ub) as (r & Er).
  - auto.
  - eapply init_good; eauto.
  - replace (forget (os_b (online_init 0%R c nsens ref T))) with (init_state unit (o_nodes c)); [exact Eu|].
    unfold forget, online_init, init_state, bmap. cbn. rewrite !map_map. f_equal; try (apply map_ext; intros; rewrite ?map_map; reflexivity). unfold bufmap. rewrite map_map. apply map_ext. intros a. rewrite map_map. reflexivity.
  - exists sched, r. auto.
Qed.
