From Verif Require Import Base BaseFacts Sched SchedSpec InstSpec Buffers BufFacts ChunkSpec Cx CxFacts Wola Dist Online OnlineSpec OnlineProps OutSpec OutFacts2 LatestSpec LatestProps SigGen Filt FiltSpec FiltFacts FiltProps Scm ScmSpec ScmFacts ScmProps Ext Full FullSpec FullFacts FullFacts2 FullFacts3 FullFacts4 FullFacts5.
From Coq Require Import Reals Lra.
Local Open Scope R_scope.

Lemma full_replay c y sched nsens ref T slots a0 a :
  starts c nsens ref T slots a0 -> full_run c y sched a0 = Ok a ->
  forall m, exists am, full_reached c y sched a0 m = Ok am /\
    reached (replay c y a) y sched (online_init 0 (replay c y a) nsens ref T) m = Ok (a_s am).
Proof.
  intros Hs H m. unfold full_run in H. rewrite <- (firstn_skipn m (marked_events sched)), foldM_app in H. apply bind_ok in H. destruct H as (am & H1 & H2).
  exists am. split; [exact H1|]. pose proof (starts_aligned _ _ _ _ _ _ Hs) as Hal.
  destruct (run_extends c y _ _ _ H1 Hal) as [A1 _]. destruct (run_extends c y _ _ _ H2 A1) as [A2 X2].
  unfold reached. rewrite <- marked_fst, firstn_map. change (online_init 0 (replay c y a) nsens ref T) with (online_init 0 (ac_o c) nsens ref T). rewrite <- (st_signals _ _ _ _ _ _ Hs).
  apply (replays c y _ a0 am H1 Hal a). exact (extends_agrees _ _ _ X2 (fun k i j _ _ => Logic.conj eq_refl (Logic.conj eq_refl eq_refl))).
Qed.

Lemma full_estimates c y sched nsens ref T slots a0 k m a n0 x0 :
  starts c nsens ref T slots a0 -> full_reached c y sched a0 m = Ok a ->
  nth_error (a_f a0) k = Some n0 -> nth_error (a_x a0) k = Some x0 ->
  let us := observations c y sched a0 k m in
  exists n x, nth_error (a_f a) k = Some n /\ nth_error (a_x a) k = Some x /\
    filt_run outer (avg (ac_beta c k)) (ac_valid c) (ac_solve c) (ac_p c) us n0 = Ok n /\ fn_i n = length us /\
    ext_run (ac_x c k) (map (fun ju => (nth (S (fst ju)) (e_w (fn_danse n)) no_coefs, Some (IZR (u_t (snd ju))))) (combine (seq 0 (length us)) us)) x0 = Ok x.
Proof.
  intros Hs H Hn Hx us. destruct (st_filters _ _ _ _ _ _ Hs k n0 Hn) as ((Hi & _) & _).
  exact (projects c y sched a0 k n0 x0 Hn Hx Hi m a H).
Qed.

Lemma full_observations c y sched nsens ref T slots a0 k m t byp a a' q :
  wola_setting (ac_o c) q -> o_comp (ac_o c) = false -> Forall (fun col => length col = T) (nth k y []) ->
  starts c nsens ref T slots a0 ->
  nth_error (marked_events sched) m = Some ((t, (k, Up)), Some byp) -> (0 <= frame_end (ac_o c) k t <= Z.of_nat T)%Z ->
  full_reached c y sched a0 m = Ok a -> full_reached c y sched a0 (S m) = Ok a' ->
  let z := nth k (b_z (os_b (a_s a'))) [] in
  let nS := length (nth k y []) in
  let i := length (observations c y sched a0 k m) in
  let spec := spectrum (2 * q) (Z.to_nat (p_Ns (o_p (ac_o c)))) (o_h (ac_o c)) in
  exists u, observations c y sched a0 k (S m) = observations c y sched a0 k m ++ [u] /\
    u_t u = t /\ u_bypass u = byp /\ u_skip u = false /\
    (exists vk, nth_error (ac_vad c) k = Some vk /\ nth_error vk i = Some (u_vad u)) /\
    fst (u_y u) = (nS + length z)%nat /\ fst (u_yl u) = nS /\
    (forall f ch, (f <= q)%nat -> (ch < nS + length z)%nat -> snd (u_y u) f ch = spec (frame_with y z k (2 * q) (frame_end (ac_o c) k t) ch) f) /\
    (forall f ch, (f <= q)%nat -> (ch < nS)%nat -> snd (u_yl u) f ch = spec (frame_of y k (2 * q) (frame_end (ac_o c) k t) ch) f).
Proof.
  intros (Hq & HN & HNs & Hf & Hw) Hc Hy Hs Hm He Ha Ha'. cbv zeta.
  destruct (reach_S c y sched a0 m a' Ha') as [[E _]|(e & a1 & E & E1 & E2)]; [congruence|].
  rewrite Hm in E. injection E as <-. rewrite Ha in E1. injection E1 as <-. unfold full_event in E2. cbn [fst snd] in E2.
  destruct (full_update_inv _ _ _ _ _ _ _ E2) as (n & n' & x & x' & u & w & En & Ex & Eu & _ & _ & _ & _ & _ & Eo).
  exists u. rewrite obs_S, Hm. unfold is_update. cbn [fst snd]. rewrite Nat.eqb_refl, Ha, Eu. split; [reflexivity|].
  destruct (observe_frames c y q T k Hq HN Hf Hw Hy t byp (a_s a) u _ _ (a_s a') He Hc Eu Eo) as (O1 & O2 & O3 & (vk & i & V1 & V2 & V3) & O4 & O5 & O6 & O7).
  split; [exact O1|]. split; [exact O2|]. split; [exact O3|]. split; [|auto].
  exists vk. split; [exact V1|].
  destruct (run_extends c y _ _ _ Ha (starts_aligned _ _ _ _ _ _ Hs)) as [Al _]. destruct (Al k i V2) as [A1 _]. specialize (A1 n En).
  destruct (nth_error (a_f a0) k) as [n0|] eqn:E0; [destruct (nth_error (a_x a0) k) as [x0|] eqn:X0|].
  - destruct (full_estimates c y sched nsens ref T slots a0 k m a n0 x0 Hs Ha E0 X0) as (n2 & x2 & N2 & _ & _ & L & _).
    rewrite En in N2. injection N2 as <-. rewrite <- L, A1. exact V3.
  - exfalso. clear - X0 E0 Hs. apply nth_error_None in X0. apply nth_error_lt in E0. destruct (st_nodes _ _ _ _ _ _ Hs). lia.
  - exfalso. assert (LL : length (a_f a) = length (a_f a0)).
    { clear - Ha. unfold full_reached in Ha. revert Ha. generalize (firstn m (marked_events sched)). intros l. revert a0. induction l as [|e l IH]; intros a0 H; [injection H as <-; reflexivity|].
      cbn [foldM] in H. apply bind_ok in H. destruct H as (a1 & H1 & H). rewrite (IH _ H). clear IH H. destruct e as [[t [k ty]] b]. unfold full_event in H1. cbn [fst snd] in H1. destruct ty; try discriminate.
      - destruct (full_broadcast_inv _ _ _ _ _ _ H1) as (-> & _). reflexivity.
      - destruct b; [|discriminate]. destruct (full_update_inv _ _ _ _ _ _ _ H1) as (? & ? & ? & ? & ? & ? & _ & _ & _ & _ & _ & _ & -> & _). apply upd_length. }
    apply nth_error_None in E0. apply nth_error_lt in En. lia.
Qed.

Lemma full_matrices c y sched nsens ref T slots a0 k m a n0 wh e0 :
  starts c nsens ref T slots a0 -> full_reached c y sched a0 m = Ok a ->
  nth_error (a_f a0) k = Some n0 -> estimator wh n0 = Some e0 -> f_use1st (ac_p c) = false ->
  let us := observations c y sched a0 k m in
  exists n e, nth_error (a_f a) k = Some n /\ estimator wh n = Some e /\
    forall f i j, e_ryy e f i j = weighted (ac_beta c k) (e_ryy e0) (pick wh true us) f i j /\
                  e_rnn e f i j = weighted (ac_beta c k) (e_rnn e0) (pick wh false us) f i j.
Proof.
  intros Hs H Hn He H1 us. destruct (nth_error (a_x a0) k) as [x0|] eqn:X0.
  2:{ exfalso. apply nth_error_None in X0. apply nth_error_lt in Hn. destruct (st_nodes _ _ _ _ _ _ Hs). lia. }
  destruct (full_estimates c y sched nsens ref T slots a0 k m a n0 x0 Hs H Hn X0) as (n & x & N & _ & Fr & _).
  destruct (C61_online_weights _ _ _ _ _ _ _ _ _ _ Fr He H1) as (e & E & W). exists n, e. auto.
Qed.

Lemma full_filters c y sched nsens ref T slots a0 k m t byp a1 a2 a n1 wh e1 :
  starts c nsens ref T slots a0 -> full_run c y sched a0 = Ok a ->
  nth_error (marked_events sched) m = Some ((t, (k, Up)), Some byp) ->
  full_reached c y sched a0 m = Ok a1 -> full_reached c y sched a0 (S m) = Ok a2 ->
  nth_error (a_f a1) k = Some n1 -> estimator wh n1 = Some e1 -> wh = Danse \/ wh = Local ->
  exists n2 e2, nth_error (a_f a2) k = Some n2 /\ estimator wh n2 = Some e2 /\
    let i := fn_i n1 in
    (updated wh n1 n2 -> nth_error (e_w e2) (S i) = Some (ac_solve c (e_dim e1) (e_ryy e2) (e_rnn e2))) /\
    (~ updated wh n1 n2 -> nth_error (e_w e2) (S i) = nth_error (e_w e1) i) /\
    forall j w, (j <= S i)%nat -> nth_error (e_w e2) j = Some w -> filter_of wh a k j = w.
Proof.
  intros Hs H Hm H1 H2 Hn1 He1 Hwh. pose proof (starts_aligned _ _ _ _ _ _ Hs) as Hal.
  destruct (reach_S c y sched a0 m a2 H2) as [[E _]|(e & a1' & E & E1 & E2)]; [congruence|].
  rewrite Hm in E. injection E as <-. rewrite H1 in E1. injection E1 as <-. unfold full_event in E2. cbn [fst snd] in E2.
  destruct (full_update_inv _ _ _ _ _ _ _ E2) as (n & n2 & x & x' & u & w & En & Ex & Eu & Est & Ew & _ & Ef & _ & Eo).
  rewrite Hn1 in En. injection En as <-.
  destruct (run_extends c y _ _ _ H1 Hal) as [A1 X1]. destruct (update_extends _ _ _ _ _ _ _ E2 A1) as [A2 X2].
  destruct (update_index _ _ _ _ _ _ Eo) as (i & Ei & Ei').
  destruct (A1 k i Ei) as [Fi _]. specialize (Fi n1 Hn1).
  (* initial state of the node *)
  assert (exists n0, nth_error (a_f a0) k = Some n0) as [n0 Hn0].
  { destruct (nth_error (a_f a0) k) as [n0|] eqn:E0; [eauto|]. exfalso.
    assert (LL : forall l b b', foldM (full_event c y) l b = Ok b' -> length (a_f b') = length (a_f b)).
    { clear. induction l as [|e l IH]; intros b b' H; [injection H as <-; reflexivity|].
      cbn [foldM] in H. apply bind_ok in H. destruct H as (b1 & H1 & H). rewrite (IH _ _ H). clear IH H. destruct e as [[t [k ty]] bb]. unfold full_event in H1. cbn [fst snd] in H1. destruct ty; try discriminate.
      - destruct (full_broadcast_inv _ _ _ _ _ _ H1) as (-> & _). reflexivity.
      - destruct bb; [|discriminate]. destruct (full_update_inv _ _ _ _ _ _ _ H1) as (? & ? & ? & ? & ? & ? & _ & _ & _ & _ & _ & _ & -> & _). apply upd_length. }
    apply nth_error_None in E0. apply nth_error_lt in Hn1. rewrite (LL _ _ _ H1) in Hn1. lia. }
  destruct (nth_error (a_x a0) k) as [x0|] eqn:X0.
  2:{ exfalso. apply nth_error_None in X0. apply nth_error_lt in Hn0. destruct (st_nodes _ _ _ _ _ _ Hs). lia. }
  destruct (full_estimates c y sched nsens ref T slots a0 k m a1 n0 x0 Hs H1 Hn0 X0) as (n1' & x1 & N1 & _ & Fr & _).
  rewrite Hn1 in N1. injection N1 as <-. destruct (st_filters _ _ _ _ _ _ Hs k n0 Hn0) as (Fresh & _).
  assert (Lw : (S (fn_i n1) < length (e_w e1))%nat).
  { destruct Hwh as [-> | ->]; cbn [estimator] in He1.
    - injection He1 as <-. destruct (step_est _ _ _ _ _ _ _ _ _ _ _ Danse _ Est (eq_refl (Some (fn_danse n1)))) as (e2 & He2 & Ho). cbn [estimator] in He2. injection He2 as <-.
      destruct (outcome_fields _ _ _ (ac_valid c) _ _ _ _ _ _ _ Ho) as (_ & _ & _ & _ & L & _). rewrite (proj1 (mid_rest _ _ _ _ _ _ _ _ _ _ _)) in L. rewrite <- L. apply nth_error_lt in Ew. exact Ew.
    - assert (Ld : length (e_w e1) = length (e_w (fn_danse n1))).
      { clear - Hs H1 Hn0 Hn1 He1 X0 E2 Hal Fr. 
        destruct (st_filters _ _ _ _ _ _ Hs k n0 Hn0) as (_ & Ld & (l0 & El0 & Ll0) & Ec & Es).
        assert (RR : forall us na nb, filt_run outer (avg (ac_beta c k)) (ac_valid c) (ac_solve c) (ac_p c) us na = Ok nb -> forall la, fn_local na = Some la -> length (e_w la) = length (e_w (fn_danse na)) ->
          exists lb, fn_local nb = Some lb /\ length (e_w lb) = length (e_w (fn_danse nb))).
        { clear. induction us as [|u us IH]; intros na nb H la Hla Hl; [injection H as <-; eauto|]. unfold filt_run in *. cbn [foldM] in H. apply bind_ok in H. destruct H as (nc & Hc & H).
          destruct (step_est _ _ _ _ _ _ _ _ _ _ _ Danse _ Hc (eq_refl (Some (fn_danse na)))) as (d2 & Hd2 & Ho). cbn [estimator] in Hd2. injection Hd2 as <-.
          destruct (outcome_fields _ _ _ (ac_valid c) _ _ _ _ _ _ _ Ho) as (_ & _ & _ & _ & L1 & _). rewrite (proj1 (mid_rest _ _ _ _ _ _ _ _ _ _ _)) in L1.
          destruct (step_est _ _ _ _ _ _ _ _ _ _ _ Local _ Hc Hla) as (l2 & Hl2 & Ho2). cbn [estimator] in Hl2.
          destruct (outcome_fields _ _ _ (ac_valid c) _ _ _ _ _ _ _ Ho2) as (_ & _ & _ & _ & L2 & _). rewrite (proj1 (mid_rest _ _ _ _ _ _ _ _ _ _ _)) in L2.
          apply (IH nc nb H l2 Hl2). congruence. }
        destruct (RR _ _ _ Fr l0 El0 ltac:(congruence)) as (lb & Elb & Llb). congruence. }
      rewrite Ld. destruct (step_est _ _ _ _ _ _ _ _ _ _ _ Danse _ Est (eq_refl (Some (fn_danse n1)))) as (e2 & He2 & Ho). cbn [estimator] in He2. injection He2 as <-.
      destruct (outcome_fields _ _ _ (ac_valid c) _ _ _ _ _ _ _ Ho) as (_ & _ & _ & _ & L & _). rewrite (proj1 (mid_rest _ _ _ _ _ _ _ _ _ _ _)) in L. rewrite <- L. apply nth_error_lt in Ew. exact Ew. }
  destruct (C28_filters_held _ _ _ _ _ _ _ _ _ _ _ _ _ wh e1 Fresh Fr Est He1 Lw) as (e2 & He2 & _ & _ & U1 & U2); [destruct Hwh; auto|].
  exists n2, e2. rewrite Ef, upd_nth_same by (eapply nth_error_lt; eassumption). split; [reflexivity|]. split; [exact He2|]. cbv zeta. split; [exact U1|]. split; [exact U2|].
  intros j w' Hj Hw'.
  assert (I' : index a2 k = Some (S i)) by (unfold index; rewrite Ei'; apply upd_nth_same; eapply nth_error_lt; eassumption).
  assert (Ext : extends a2 a).
  { unfold full_run in H. rewrite <- (firstn_skipn (S m) (marked_events sched)), foldM_app in H. apply bind_ok in H. destruct H as (am & H3 & H4).
    unfold full_reached in H2. rewrite H2 in H3. injection H3 as <-. apply (run_extends c y _ _ _ H4 A2). }
  destruct (Ext k (S i) I') as [_ F]. destruct (F j ltac:(lia)) as (F1 & F2 & _).
  destruct Hwh as [-> | ->]; cbn [estimator] in He2.
  - injection He2 as <-. unfold filter_of. rewrite <- F1. unfold int_at. rewrite Ef, upd_nth_same by (eapply nth_error_lt; eassumption). apply nth_error_nth. exact Hw'.
  - unfold filter_of. rewrite <- F2. unfold loc_at. rewrite Ef, upd_nth_same by (eapply nth_error_lt; eassumption). rewrite He2. apply nth_error_nth. exact Hw'.
Qed.


Lemma run_dim beta valid (W : Type) (solve : nat -> tens -> tens -> W) p us : forall n0 n wh e0 e, filt_run outer (avg beta) valid solve p us n0 = Ok n ->
  estimator wh n0 = Some e0 -> estimator wh n = Some e -> e_dim e = e_dim e0.
Proof.
  induction us as [|u us IH]; intros n0 n wh e0 e H H0 He; [injection H as <-; congruence|].
  unfold filt_run in *. cbn [foldM] in H. apply bind_ok in H. destruct H as (n1 & H1 & H).
  destruct (step_est _ _ _ _ _ _ _ _ _ _ _ wh _ H1 H0) as (e1 & E1 & Ho). rewrite (IH n1 n wh e1 e H E1 He).
  destruct (outcome_fields _ _ _ valid _ _ _ _ _ _ _ Ho) as (_ & _ & _ & D & _). rewrite D. apply mid_rest.
Qed.

Lemma full_optimal c y sched nsens ref T slots a0 k m t byp a1 a2 a n0 n1 n2 wh e0 inv r f :
  starts c nsens ref T slots a0 -> full_run c y sched a0 = Ok a ->
  nth_error (marked_events sched) m = Some ((t, (k, Up)), Some byp) ->
  full_reached c y sched a0 m = Ok a1 -> full_reached c y sched a0 (S m) = Ok a2 ->
  nth_error (a_f a0) k = Some n0 -> nth_error (a_f a1) k = Some n1 -> nth_error (a_f a2) k = Some n2 ->
  estimator wh n0 = Some e0 -> wh = Danse \/ wh = Local -> updated wh n1 n2 ->
  f_use1st (ac_p c) = false -> (r < e_dim e0)%nat ->
  (forall n ryy rnn f, ac_solve c n ryy rnn f = update_w n r (inv n (ryy f)) (ryy f) (rnn f)) ->
  let us := observations c y sched a0 k (S m) in
  let Ry := weighted (ac_beta c k) (e_ryy e0) (pick wh true us) f in
  let Rn := weighted (ac_beta c k) (e_rnn e0) (pick wh false us) f in
  inverts inv (e_dim e0) Ry ->
  solves (e_dim e0) Ry (filter_of wh a k (length us) f) (fun j => Ry j r - Rn j r)%cx.
Proof.
  intros Hs H Hm H1 H2 Hn0 Hn1 Hn2 He0 Hwh Hup H1st Hr Hsol us Ry Rn Hinv.
  destruct (nth_error (a_x a0) k) as [x0|] eqn:X0.
  2:{ exfalso. apply nth_error_None in X0. apply nth_error_lt in Hn0. destruct (st_nodes _ _ _ _ _ _ Hs). lia. }
  destruct (full_estimates c y sched nsens ref T slots a0 k m a1 n0 x0 Hs H1 Hn0 X0) as (n1' & x1 & N1 & _ & Fr1 & L1 & _). rewrite Hn1 in N1. injection N1 as <-.
  destruct (full_estimates c y sched nsens ref T slots a0 k (S m) a2 n0 x0 Hs H2 Hn0 X0) as (n2' & x2 & N2 & _ & Fr2 & L2 & _). rewrite Hn2 in N2. injection N2 as <-.
  fold us in L2.
  destruct Hup as (e1 & e2 & E1 & E2 & Eu).
  destruct (full_filters c y sched nsens ref T slots a0 k m t byp a1 a2 a n1 wh e1 Hs H Hm H1 H2 Hn1 E1 Hwh) as (n2' & e2' & N2 & E2' & U & _ & F).
  rewrite Hn2 in N2. injection N2 as <-. rewrite E2 in E2'. injection E2' as <-. cbv zeta in U, F. specialize (U (ex_intro _ e1 (ex_intro _ e2 (Logic.conj E1 (Logic.conj E2 Eu))))).
  destruct (C61_online_weights _ _ _ _ _ _ _ _ _ _ Fr2 He0 H1st) as (e2' & E2' & W). rewrite E2 in E2'. injection E2' as <-.
  assert (Li : length us = S (fn_i n1)).
  { rewrite <- L2. destruct (reach_S c y sched a0 m a2 H2) as [[E _]|(ev & a1' & E & E1' & E2')]; [congruence|].
    rewrite Hm in E. injection E as <-. rewrite H1 in E1'. injection E1' as <-. unfold full_event in E2'. cbn [fst snd] in E2'.
    destruct (full_update_inv _ _ _ _ _ _ _ E2') as (n & n' & x & x' & u & w & En & Ex & _ & Es & _ & _ & Ef & _).
    rewrite Hn1 in En. injection En as <-. rewrite Ef, upd_nth_same in Hn2 by (eapply nth_error_lt; eassumption). injection Hn2 as <-. exact (proj1 (step_counts _ _ _ _ _ _ _ _ _ _ _ Es)). }
  rewrite Li, (F _ _ (le_n _) U), Hsol, (run_dim _ _ _ _ _ _ _ _ _ _ _ Fr1 He0 E1).
  assert (Ey : forall i j, Ry i j = e_ryy e2 f i j) by (intros i j; symmetry; apply W).
  assert (En : forall i j, Rn i j = e_rnn e2 f i j) by (intros i j; symmetry; apply W).
  pose proof (update_w_solves (e_dim e0) r (inv (e_dim e0) (e_ryy e2 f)) (e_ryy e2 f) (e_rnn e2 f) Hr (Hinv _ (fun i j => eq_sym (Ey i j)))) as S.
  intros i Hi. specialize (S i Hi). cbv beta in S. rewrite Ey, En, <- S. apply csum_ext. intros j _. now rewrite Ey.
Qed.
