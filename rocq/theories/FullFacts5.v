(** Completion of runs with filter estimation (continued). *)
From Verif Require Import Base BaseFacts Sched SchedSpec SchedFacts SchedFacts2 SchedFacts4 SchedFacts5 InstSpec InstFacts Buffers BufFacts SyncFacts SyncFacts2 SyncFacts3 Chunk ChunkSpec Level Cx CxFacts Wola WolaFacts Dist SroComp Online OnlineSpec OutSpec OutFacts OutFacts2 LatestSpec LatestFacts LatestFacts2 LatestFacts3 LatestFacts4 LatestFacts5 CompleteFacts CompleteFacts2 CompleteFacts3 SigGen SigGenFacts Filt FiltSpec FiltFacts Scm Ext Full FullSpec FullFacts FullFacts2 FullFacts3 FullFacts4.
From Coq Require Import Reals.
Local Open Scope nat_scope.

Lemma to_list_shape m nb w : length (to_list m nb w) = m /\ Forall (fun l => length l = nb) (to_list m nb w).
Proof.
  unfold to_list. split; [rewrite map_length, seq_length; reflexivity|]. apply Forall_forall. intros l Hl. apply in_map_iff in Hl. destruct Hl as (ch & <- & _).
  rewrite map_length, seq_length. reflexivity.
Qed.
Lemma with_consistent c y nsens q T fs xs : consistent (ac_o c) y nsens q T -> consistent (with_filters c y fs xs) y nsens q T.
Proof.
  intros [H1 H2 H3 [Hq HN] H5 H6 H7 H8].
  assert (E : Z.to_nat (p_N (o_p (ac_o c))) / 2 + 1 = q + 1) by (rewrite HN, Nat2Z.id, Nat.mul_comm, Nat.div_mul; lia).
  constructor; try assumption; [split; assumption| | |]; intros k i Hk; cbn [with_filters o_ext o_int o_loc o_nodes]; rewrite E; apply to_list_shape.
Qed.
Lemma with_regular c y per T fs xs : regular (ac_o c) per T -> regular (with_filters c y fs xs) per T.
Proof. intros [H1 H2 H3 H4 H5 H6 H7 H8 H9]. constructor; assumption. Qed.

Lemma foldM_step {S E} (f : S -> E -> res S) evs m e s r sm : foldM f evs s = Ok r -> nth_error evs m = Some e -> foldM f (firstn m evs) s = Ok sm -> exists s', f sm e = Ok s'.
Proof.
  intros H He Hm. apply nth_error_split in He. destruct He as (l1 & l2 & -> & <-). rewrite firstn_app, Nat.sub_diag, firstn_all, firstn_O, app_nil_r in Hm.
  rewrite foldM_app, Hm in H. cbn [bind foldM] in H. apply bind_ok in H. destruct H as (s' & H & _). eauto.
Qed.

Section Complete.
  Variables (c : acfg) (y : list (list (list R))) (sched : list instant) (a0 : astate) (slots : nat).
  Hypothesis Hal : aligned a0.
  (** Runs with given filters finish, whatever the filters. *)
  Hypothesis Hgiven : forall fs xs, exists r, online_run (with_filters c y fs xs) y sched (a_s a0) = Ok r.
  Hypothesis Hmarks : forall e, In e (marked_events sched) -> exists b, snd e = Some b.
  Hypothesis Hroom : forall k n, nth_error (a_f a0) k = Some n -> roomy slots n.
  Hypothesis Hext : forall k x, nth_error (a_x a0) k = Some x -> length (x_ext x) = slots.
  Hypothesis Hzero : forall k i, index a0 k = Some i -> i = 0.
  Hypothesis Hnodes : forall t k, In (t, (k, Up)) (flat_events sched) ->
    k < length (a_f a0) /\ k < length (a_x a0) /\ length (updates_of k (flat_events sched)) < slots /\
    exists vk, nth_error (ac_vad c) k = Some vk /\ length (updates_of k (flat_events sched)) <= length vk.

  Record inv (m : nat) (a : astate) : Prop := {
    i_al : aligned a;
    i_room : forall k n, nth_error (a_f a) k = Some n -> roomy slots n;
    i_ext : forall k x, nth_error (a_x a) k = Some x -> length (x_ext x) = slots;
    i_len : length (a_f a) = length (a_f a0) /\ length (a_x a) = length (a_x a0);
    i_idx : forall k i, index a k = Some i -> i <= length (updates_of k (firstn m (flat_events sched)))
  }.

  Lemma reaches m : exists a, full_reached c y sched a0 m = Ok a /\ inv m a.
  Proof.
    induction m as [|m (a & Ha & I)].
    - exists a0. split; [reflexivity|]. constructor; auto. intros k i Hi. rewrite (Hzero k i Hi). lia.
    - unfold full_reached in *. rewrite firstn_S_nth.
      destruct (nth_error (marked_events sched) m) as [e|] eqn:Ee.
      2:{ exists a. rewrite app_nil_r. split; [exact Ha|]. destruct I as [I1 I2 I3 I4 I5]. constructor; try assumption.
          intros k i Hi. specialize (I5 k i Hi). rewrite updates_S. lia. }
      rewrite foldM_app, Ha. cbn [bind foldM].
      destruct I as [I1 I2 I3 [I4 I4'] I5].
      assert (Ef : nth_error (flat_events sched) m = Some (fst e)) by (rewrite <- marked_fst, nth_error_map, Ee; reflexivity).
      assert (Next : forall a'', agrees a a'' -> exists s', online_event (replay c y a'') y (a_s a) (fst e) = Ok s').
      { intros a'' Hag. destruct (Hgiven (a_f a'') (a_x a'')) as [r Er]. unfold online_run in Er. change (with_filters c y (a_f a'') (a_x a'')) with (replay c y a'') in Er.
        refine (foldM_step _ _ m _ _ r _ Er Ef _). rewrite <- marked_fst, firstn_map. apply (replays c y _ a0 a Ha Hal a'' Hag). }
      destruct (Hmarks e (nth_error_In _ _ Ee)) as [b Eb].
      assert (Inf := nth_error_In _ _ Ef). destruct e as [[t [k ty]] bb]. cbn [fst snd] in *. subst bb. unfold full_event, online_event in *. cbn [fst snd] in *.
      destruct ty; try (destruct (Next a) as [s' E']; [intros k' i' j _ _; auto | discriminate E']).
      + (* broadcast *)
        destruct (Next a) as [s' E']; [intros k' i' j _ _; auto|]. unfold full_broadcast. change (with_filters c y (a_f a) (a_x a)) with (replay c y a). rewrite E'. cbn [bind].
        eexists. split; [reflexivity|].
        assert (EB : full_broadcast c y t k a = Ok (mkAS s' (a_f a) (a_x a))) by (unfold full_broadcast; change (with_filters c y (a_f a) (a_x a)) with (replay c y a); rewrite E'; reflexivity).
        constructor; cbn [a_f a_x]; auto; [apply (broadcast_extends _ _ _ _ _ _ EB I1)|].
        intros k' i' Hi'. unfold index in Hi'. cbn [a_s] in Hi'. rewrite (broadcast_index _ _ _ _ _ _ E') in Hi'. specialize (I5 k' i' Hi'). rewrite updates_S. lia.
      + (* update *)
        destruct (Hnodes t k Inf) as (Hk1 & Hk2 & Hs & vk & Hvk & Hv).
        destruct (Next a) as [s0 E0]; [intros k' i' j _ _; auto|]. destruct (update_index _ _ _ _ _ _ E0) as (i & Hi & _).
        destruct (nth_error (a_f a) k) as [n|] eqn:En; [|apply nth_error_None in En; lia].
        destruct (nth_error (a_x a) k) as [x|] eqn:Ex; [|apply nth_error_None in Ex; lia].
        assert (Hcount : i < length (updates_of k (flat_events sched))).
        { specialize (I5 k i Hi). apply Nat.le_lt_trans with (1 := I5).
          pose proof (updates_S k (flat_events sched) m) as US. rewrite Ef in US. unfold is_update in US. cbn [fst snd] in US. rewrite Nat.eqb_refl in US.
          assert (length (updates_of k (firstn (S m) (flat_events sched))) <= length (updates_of k (flat_events sched))); [|lia].
          rewrite <- (firstn_skipn (S m) (flat_events sched)) at 2. unfold updates_of. rewrite filter_app, app_length. lia. }
        destruct (nth_error vk i) as [v|] eqn:Evi; [|apply nth_error_None in Evi; lia].
        destruct (update_proceeds c y slots t k b a n x i vk v I1 Hi En Ex (I2 k n En) (I3 k x Ex) ltac:(lia) Hvk Evi Next) as (a' & n' & x' & E' & Ef' & Ex' & Hr & Lx).
        rewrite E'. cbn [bind]. exists a'. split; [reflexivity|].
        constructor.
        * apply (update_extends _ _ _ _ _ _ _ E' I1).
        * intros k' n2 Hn2. rewrite Ef' in Hn2. destruct (Nat.eq_dec k' k) as [->|Hne].
          -- rewrite upd_nth_same in Hn2 by (eapply nth_error_lt; eassumption). injection Hn2 as <-. exact Hr.
          -- rewrite upd_nth_other in Hn2 by congruence. exact (I2 k' n2 Hn2).
        * intros k' x2 Hx2. rewrite Ex' in Hx2. destruct (Nat.eq_dec k' k) as [->|Hne].
          -- rewrite upd_nth_same in Hx2 by (eapply nth_error_lt; eassumption). injection Hx2 as <-. exact Lx.
          -- rewrite upd_nth_other in Hx2 by congruence. exact (I3 k' x2 Hx2).
        * rewrite Ef', Ex', !upd_length. auto.
        * intros k' i' Hi'. destruct (full_update_inv _ _ _ _ _ _ _ E') as (n1 & n2 & x1 & x2 & u & w & _ & _ & _ & _ & _ & _ & _ & _ & Eo).
          destruct (update_index _ _ _ _ _ _ Eo) as (i2 & Hi2 & Ei2). unfold index in Hi'. rewrite Ei2 in Hi'. rewrite updates_S, Ef. unfold is_update. cbn [fst snd].
          destruct (Nat.eqb_spec k k') as [<-|Hne].
          -- rewrite upd_nth_same in Hi' by (eapply nth_error_lt; eassumption). injection Hi' as <-. specialize (I5 k i2 Hi2). lia.
          -- rewrite upd_nth_other in Hi' by congruence. specialize (I5 k' i' Hi'). lia.
  Qed.
  Lemma run_finishes : exists a, full_run c y sched a0 = Ok a.
  Proof. destruct (reaches (length (marked_events sched))) as (a & Ha & _). exists a. unfold full_reached in Ha. rewrite firstn_all in Ha. exact Ha. Qed.
End Complete.

Lemma starts_aligned c nsens ref T slots a : starts c nsens ref T slots a -> aligned a.
Proof.
  intros [S1 S2 S3 S4] k i Hi. unfold index in Hi. rewrite S1 in Hi. cbn in Hi. rewrite nth_error_map in Hi. destruct (nth_error _ k); [|discriminate]. injection Hi as <-.
  split; [intros n Hn; apply (S3 k n Hn) | intros x Hx; apply (S4 k x Hx)].
Qed.
Lemma starts_zero c nsens ref T slots a k i : starts c nsens ref T slots a -> index a k = Some i -> i = 0.
Proof.
  intros [S1 S2 S3 S4] Hi. unfold index in Hi. rewrite S1 in Hi. cbn in Hi. rewrite nth_error_map in Hi. destruct (nth_error _ k); [|discriminate]. injection Hi as <-. reflexivity.
Qed.

Lemma full_completes tsort c y nsens q T ref ordering_of per prop slots a0 :
  let p := o_p (ac_o c) in
  is_argsort tsort -> regular (ac_o c) per T -> consistent (ac_o c) y nsens q T ->
  (p_whole p = true -> p_N p = 2 * p_Ns p)%Z -> 2 * q <= T ->
  Z.of_nat slots = (alloc_iters (Z.of_nat T) (p_N p) (p_Ns p) + 1)%Z ->
  (forall k, k < length (o_nodes (ac_o c)) -> exists vad vk, length vad = T /\ vad_per_frame (2 * q) (Z.to_nat (p_Ns p)) prop vad = Ok vk /\ nth_error (ac_vad c) k = Some vk) ->
  starts c nsens ref T slots a0 ->
  exists sched a, initialize_events tsort p (o_nodes (ac_o c)) ordering_of = Ok (sched, []) /\ full_run c y sched a0 = Ok a.
Proof.
  intros p0. unfold p0 in *. clear p0. intros Hs Hr Hc Hw HT Hsl Hvad Hst. pose proof Hr as [R1 R2 R3 R4 R5 R6 R7 R8 R9].
  destruct (completes tsort (ac_o c) y nsens q T ref ordering_of per Hc Hs R1 R2 (fun H => Logic.conj (R3 H) (Hw H)) R4 R5 R6 R7 R8 R9) as (sched & r0 & E1 & Hev & _).
  exists sched. destruct Hc as [C1 C2 C3 [Hq HN] C5 C6 C7 C8] eqn:EHc. clear EHc. destruct R1 as (P1 & P2 & P3).
  assert (HNs : (p_Ns (o_p (ac_o c)) <= p_N (o_p (ac_o c)))%Z) by (apply Z.divide_pos_le; assumption).
  assert (Bound : forall M, (forall i, (p_N (o_p (ac_o c)) + Z.of_nat i * p_Ns (o_p (ac_o c)) <= Z.of_nat T - 1)%Z -> i < M) -> forall k, length (updates_of k (flat_events sched)) <= M).
  { intros M HM k. apply (updates_bound (o_p (ac_o c)) (o_nodes (ac_o c)) per T _ k M Hev). intros i Hi. apply HM. pose proof (Z.mul_div_le (Z.of_nat (T - 1)) (p_Ns (o_p (ac_o c))) P2). lia. }
  destruct (run_finishes c y sched a0 slots) as [a Ha]; [..|exists a; auto].
  - exact (starts_aligned _ _ _ _ _ _ Hst).
  - intros fs xs. destruct (completes tsort (with_filters c y fs xs) y nsens q T ref ordering_of per) as (sched' & r & E1' & _ & E2'); try assumption.
    + apply with_consistent. constructor; auto.
    + split; [assumption|split; assumption].
    + intros H. split; [apply R3; exact H | apply Hw; exact H].
    + change (initialize_events tsort (o_p (ac_o c)) (o_nodes (ac_o c)) ordering_of = Ok (sched', [])) in E1'. rewrite E1 in E1'. injection E1' as <-. exists r. rewrite (st_signals _ _ _ _ _ _ Hst). exact E2'.
  - apply marked_some. exact (schedule_marked _ _ _ _ _ _ Hs E1).
  - intros k n Hn. destruct (st_filters _ _ _ _ _ _ Hst k n Hn) as (_ & H1 & H2 & H3 & H4). split; auto.
  - intros k x Hx. apply (st_ext _ _ _ _ _ _ Hst k x Hx).
  - intros k i Hi. exact (starts_zero _ _ _ _ _ _ _ _ Hst Hi).
  - intros t k Hin. apply (se_up _ _ _ _ _ Hev) in Hin. destruct Hin as [Hk _]. destruct (st_nodes _ _ _ _ _ _ Hst) as [L1 L2].
    split; [lia|]. split; [lia|]. split.
    + assert (Hq0 : (Z.quot (Z.of_nat T - p_N (o_p (ac_o c))) (p_Ns (o_p (ac_o c))) = (Z.of_nat T - p_N (o_p (ac_o c))) / p_Ns (o_p (ac_o c)))%Z) by (apply Z.quot_div_nonneg; lia).
      unfold alloc_iters in Hsl. rewrite Hq0 in Hsl. assert (0 <= (Z.of_nat T - p_N (o_p (ac_o c))) / p_Ns (o_p (ac_o c)))%Z by (apply Z.div_pos; lia). apply Nat.le_lt_trans with (slots - 1); [|lia].
      apply Bound. intros i Hi. assert (Z.of_nat i <= (Z.of_nat T - p_N (o_p (ac_o c))) / p_Ns (o_p (ac_o c)))%Z by (apply Z.div_le_lower_bound; lia). lia.
    + destruct (Hvad k Hk) as (vad & vk & Lv & Ev & Evk). exists vk. split; [exact Evk|].
      destruct (vad_frames_spec (2 * q) (Z.to_nat (p_Ns (o_p (ac_o c)))) prop vad) as (r & Er & Lr & _); [destruct vad; [cbn in Lv; lia|discriminate]|lia|].
      rewrite Ev in Er. injection Er as <-. rewrite Lr, Lv. unfold complete_frames. destruct (Nat.leb_spec (2 * q) T); [|lia]. apply Bound. intros i Hi.
      assert (Hi' : 2 * q + i * Z.to_nat (p_Ns (o_p (ac_o c))) <= T - 1) by nia. apply Nat.min_glb_lt.
      * apply Nat.lt_le_trans with (S i); [lia|]. apply Nat.div_le_lower_bound; [lia|]. nia.
      * assert (i <= (T - 2 * q) / Z.to_nat (p_Ns (o_p (ac_o c)))); [|lia]. apply Nat.div_le_lower_bound; lia.
Qed.
