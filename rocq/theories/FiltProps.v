(** C25, C26, C28: when filters are updated and when they are held. *)
From Verif Require Import Base BaseFacts Buffers Filt FiltSpec FiltFacts Batch BatchFacts.
Open Scope nat_scope.

(** ** C25
    For every run of a node from its initial state, with any matrices, averaging,
    validity test and filter formula: a filter update of any of the estimators
    takes place only at an event that is neither bypassed nor skipped, after more
    speech frames and more noise frames than the estimator has channels, and not
    before the configured start time (unless enabled from the beginning by
    'batch_estimates' initialisation). *)
Theorem C25_updates_start_late_enough :
  forall (Fr M W : Type) (outer : Fr -> M) avg valid (solve : nat -> M -> M -> W) p us n0 n u n' wh,
    fresh n0 -> f_batch_init p = false ->
    filt_run outer avg valid solve p us n0 = Ok n -> filt_step outer avg valid solve p n u = Ok n' -> updated wh n n' ->
    u_bypass u = false /\ u_skip u = false /\
    (exists e, estimator wh n' = Some e /\ e_start e = true /\ e_dim e < speech_frames (us ++ [u]) /\ e_dim e < noise_frames (us ++ [u])) /\
    exists u', In u' (us ++ [u]) /\ (f_start_after p <= u_t u')%Z.
Proof. intros. eapply update_conditions; eauto. Qed.

(** Once enabled, an estimator stays enabled for the rest of the run... *)
Theorem C25_never_stops :
  forall (Fr M W : Type) (outer : Fr -> M) avg valid (solve : nat -> M -> M -> W) p us n n' wh e,
    filt_run outer avg valid solve p us n = Ok n' -> estimator wh n = Some e -> e_start e = true ->
    exists e', estimator wh n' = Some e' /\ e_start e' = true.
Proof. intros. eapply never_stops; eauto. Qed.

(** ...and is updated at every event that is neither bypassed nor skipped. *)
Theorem C25_updates_at_every_event :
  forall (Fr M W : Type) (outer : Fr -> M) avg valid (solve : nat -> M -> M -> W) p n u n' wh e,
    filt_step outer avg valid solve p n u = Ok n' -> estimator wh n = Some e -> e_start e = true ->
    f_bypass_all p = false -> u_bypass u = false -> u_skip u = false -> u_skipc u = false -> updated wh n n'.
Proof. intros. eapply always_updates; eauto. Qed.

(** ** C26
    At every event the frame enters exactly the matrix chosen by the VAD and the
    other one keeps its value.  (For the centralised estimator this needs
    [use1stFrameAsBasis] off, see below.) *)
Theorem C26_one_matrix_per_frame :
  forall (Fr M W : Type) (outer : Fr -> M) avg valid (solve : nat -> M -> M -> W) p n u n' wh e,
    filt_step outer avg valid solve p n u = Ok n' -> estimator wh n = Some e -> wh <> Centr \/ f_use1st p = false ->
    exists e', estimator wh n' = Some e' /\
      (vad wh u = true -> e_rnn e' = e_rnn e /\
         e_ryy e' = if f_use1st p && Nat.eqb (fn_yy n) 0 then outer (frame wh u) else avg (e_ryy e) (outer (frame wh u))) /\
      (vad wh u = false -> e_ryy e' = e_ryy e /\
         e_rnn e' = if f_use1st p && Nat.eqb (fn_nn n) 0 then outer (frame wh u) else avg (e_rnn e) (outer (frame wh u))).
Proof. intros. eapply matrices; eauto. Qed.

(** The counters are the numbers of speech and noise frames, and add up. *)
Theorem C26_counters :
  forall (Fr M W : Type) (outer : Fr -> M) avg valid (solve : nat -> M -> M -> W) p us n0 n,
    fresh n0 -> filt_run outer avg valid solve p us n0 = Ok n ->
    fn_yy n = speech_frames us /\ fn_nn n = noise_frames us /\ fn_yy n + fn_nn n = fn_i n /\ fn_i n = length us.
Proof.
  intros Fr M W outer avg valid solve p us n0 n (F1 & F2 & F3 & _) H. apply run_counts in H. rewrite F1, F2, F3 in H.
  assert (A : speech_frames us + noise_frames us = length us).
  { unfold speech_frames, noise_frames. clear. induction us as [|u us IH]; [reflexivity|]. simpl. destruct (u_vad u); simpl; lia. }
  lia.
Qed.

(** With [use1stFrameAsBasis] the centralised matrices are gated by the node's own
    counters, so a frame may enter neither of them. *)
Theorem C26_centralised_frame_lost_refuted :
  exists (p : fparams) (n n' : fnode nat nat) (u : uevent nat) e e',
    fresh n /\ f_use1st p = true /\
    filt_step (fun y => y) (fun r s => r + s) (fun _ _ _ => true) (fun _ r s => r) p n u = Ok n' /\
    estimator Centr n = Some e /\ estimator Centr n' = Some e' /\
    u_yc u <> 0 /\ e_ryy e' = e_ryy e /\ e_rnn e' = e_rnn e.
Proof.
  set (e0 := est_init 5 0 4 1).
  exists (mkF false 0 true false), (fnode_init e0 None (Some e0) None).
  eexists. exists (mkU 0 7 7 7 7 false true false false false). eexists. eexists.
  split; [|split; [reflexivity|]; split; [vm_compute; reflexivity|]; split; [reflexivity|]; split; [reflexivity|]; split; [discriminate | split; reflexivity]].
  do 3 (split; [reflexivity|]). intros wh e He.
  assert (e = e0) by (destruct wh; cbn in He; congruence). subst e. do 2 (split; [reflexivity|]). exists 0. intros w Hw.
  cbn in Hw. intuition.
Qed.

(** ** C28
    In a run from the initial state, the filter for the next iteration is the new
    estimate if an update takes place and the present filter otherwise; the
    filters of earlier iterations keep their values.  (For the centralised and the
    single-sensor estimators: unless the event is skipped but not bypassed.) *)
Theorem C28_filters_held :
  forall (Fr M W : Type) (outer : Fr -> M) avg valid (solve : nat -> M -> M -> W) p us n0 n u n' wh e,
    fresh n0 -> filt_run outer avg valid solve p us n0 = Ok n -> filt_step outer avg valid solve p n u = Ok n' ->
    estimator wh n = Some e -> S (fn_i n) < length (e_w e) ->
    (wh = Danse \/ wh = Local \/ u_skip u = false \/ u_bypass u = true) ->
    exists e', estimator wh n' = Some e' /\ length (e_w e') = length (e_w e) /\
      (forall j, j <= fn_i n -> nth_error (e_w e') j = nth_error (e_w e) j) /\
      (updated wh n n' -> nth_error (e_w e') (S (fn_i n)) = Some (solve (e_dim e) (e_ryy e') (e_rnn e'))) /\
      (~ updated wh n n' -> nth_error (e_w e') (S (fn_i n)) = nth_error (e_w e) (fn_i n)).
Proof. intros. eapply filters; eauto. Qed.

(** If the initial filters differ from iteration to iteration (initialisation
    type 'random'), the filter is not held before updates are enabled. *)
Theorem C28_random_start_refuted :
  exists (p : fparams) (n n' : fnode nat nat) (u : uevent nat),
    e_start (fn_danse n) = false /\ e_w (fn_danse n) = [1; 2; 3] /\
    filt_step (fun y => y) (fun r s => r + s) (fun _ _ _ => true) (fun _ r s => r) p n u = Ok n' /\
    ~ updated Danse n n' /\ nth_error (e_w (fn_danse n')) 1 <> nth_error (e_w (fn_danse n)) 0.
Proof.
  exists (mkF false 0 false false), (fnode_init (mkE 5 5 false [1; 2; 3] 0 1) None None None). eexists.
  exists (mkU 0 7 7 7 7 false true false false false).
  do 2 (split; [reflexivity|]). split; [vm_compute; reflexivity|]. split; [|discriminate].
  intros (e & e' & H1 & H2 & H3). injection H1 as <-. injection H2 as <-. discriminate.
Qed.

(** When an event is skipped because of buffer flags without being bypassed, the
    centralised filter falls back to its initial value. *)
Theorem C28_skipped_centralised_refuted :
  exists (p : fparams) (n0 n n' : fnode nat nat) (us : list (uevent nat)) (u : uevent nat) e e',
    fresh n0 /\
    filt_run (fun y => y) (fun r s => r + s) (fun _ _ _ => true) (fun _ r s => 100 + r) p us n0 = Ok n /\
    filt_step (fun y => y) (fun r s => r + s) (fun _ _ _ => true) (fun _ r s => 100 + r) p n u = Ok n' /\
    u_skip u = true /\ estimator Centr n = Some e /\ estimator Centr n' = Some e' /\
    nth_error (e_w e) (fn_i n) = Some 112 /\ nth_error (e_w e') (S (fn_i n)) = Some 0.
Proof.
  set (e0 := est_init 5 0 4 0).
  exists (mkF false 0 false false), (fnode_init e0 None (Some e0) None). eexists. eexists.
  exists [mkU 0%Z 7 7 7 7 true true false false false; mkU 1%Z 7 7 0 7 false true false false false].
  exists (mkU 2%Z 7 7 7 7 true true false true false). eexists. eexists.
  split; [|split; [vm_compute; reflexivity|]; split; [vm_compute; reflexivity|]; split; [reflexivity|]; split; [reflexivity|]; split; [reflexivity|]; split; vm_compute; reflexivity].
  do 3 (split; [reflexivity|]). intros wh e He.
  assert (e = e0) by (destruct wh; cbn in He; congruence). subst e. do 2 (split; [reflexivity|]). exists 0. intros w Hw.
  cbn in Hw. intuition.
Qed.

(** Batch sequential DANSE, for any number of nodes and iterations, any signals,
    filter formula and external filter rule: at iteration [j] node [j mod n], and
    only it, computes a new filter (from the external filters of iteration [j]);
    every other node holds its own.  The external filter of every node follows its
    rule. *)
Theorem C28_batch_sequential :
  forall (M W E : Type) (covmats : list E -> nat -> M) (solve : nat -> M -> W) ext_rule iters (bs : list (bnode W E)),
    (forall b, In b bs -> b_i b = 0 /\ iters < length (b_w b) /\ iters < length (b_ext b)) ->
    exists bs', batch_seq covmats solve ext_rule iters 0 bs = Ok bs' /\ length bs' = length bs /\
    forall j, j < iters ->
      exists es, mapM (fun b => get (b_ext b) j) bs' = Ok es /\
      forall k b', nth_error bs' k = Some b' -> exists w w' e,
        nth_error (b_w b') j = Some w /\ nth_error (b_w b') (S j) = Some w' /\ nth_error (b_ext b') j = Some e /\
        w' = (if Nat.eqb (j mod length bs) k then solve k (covmats es k) else w) /\
        nth_error (b_ext b') (S j) = Some (ext_rule k e w').
Proof.
  intros M W E covmats solve ext_rule iters bs H.
  assert (Hi : at_iter W E 0 bs) by (intros b Hb; apply (H b Hb)).
  destruct (seq_succeeds M W E covmats solve ext_rule iters 0 0 bs Hi) as [bs' Hr]; [intros b Hb; apply (H b Hb)|].
  exists bs'. split; [exact Hr|]. replace 0 with (0 mod length bs) in Hr at 1 by (destruct bs; [reflexivity | apply Nat.mod_0_l; discriminate]).
  destruct (seq_run M W E covmats solve ext_rule iters 0 bs bs' Hr Hi) as ([L _] & _ & C); [intros b Hb; apply (H b Hb)|].
  split; [exact L|]. intros j Hj. exact (C j ltac:(lia)).
Qed.

(** Simultaneous (and asynchronous) batch DANSE: all nodes compute new filters. *)
Theorem C28_batch_simultaneous :
  forall (M W E : Type) (covmats : list E -> nat -> M) (solve : nat -> M -> W) ext_rule iters (bs bs' : list (bnode W E)),
    (forall b, In b bs -> b_i b = 0 /\ iters < length (b_w b)) ->
    batch_sim covmats solve ext_rule iters bs = Ok bs' ->
    forall j, j < iters ->
      exists es, mapM (fun b => get (b_ext b) j) bs' = Ok es /\
      forall k b', nth_error bs' k = Some b' -> exists w e,
        nth_error (b_w b') (S j) = Some w /\ nth_error (b_ext b') j = Some e /\
        w = solve k (covmats es k) /\ nth_error (b_ext b') (S j) = Some (ext_rule k e w).
Proof.
  intros M W E covmats solve ext_rule iters bs bs' H Hr j Hj.
  assert (Hi : at_iter W E 0 bs) by (intros b Hb; apply (H b Hb)).
  destruct (sim_run M W E covmats solve ext_rule iters 0 bs bs' Hr Hi) as (_ & _ & C); [intros b Hb; apply (H b Hb)|].
  destruct (C j ltac:(lia)) as [es [H1 H2]]. exists es. split; [exact H1|]. intros k b' Hb'.
  destruct (H2 k b' Hb') as (w & w' & e & _ & A & B & C1 & D). exists w', e. auto.
Qed.

(** ** Examples *)
(** One channel, updates from time 3 on: enabled at the sixth event (more than one
    speech and one noise frame), the seventh is bypassed. *)
Definition ex_p := mkF false 3 false false.
Definition ex_node : fnode nat nat := fnode_init (est_init 1 0 9 1) (Some (est_init 1 0 9 1)) None None.
Definition ex_ev (t : Z) (v b : bool) : uevent nat := mkU t 3 4 5 6 v v b false false.
Definition ex_run := filt_run (fun y => y) (fun r s => r + s) (fun _ _ _ => true) (fun _ r s => 2 * r + s) ex_p.
Definition ex_us := [ex_ev 0 true false; ex_ev 1 false false; ex_ev 2 true false; ex_ev 3 true false; ex_ev 4 false false; ex_ev 5 true true; ex_ev 6 false false].

Example C25_ex_fresh : fresh ex_node.
Proof.
  do 3 (split; [reflexivity|]). intros wh e He. assert (e = est_init 1 0 9 1) by (destruct wh; cbn in He; congruence). subst e.
  do 2 (split; [reflexivity|]). exists 0. intros w Hw. cbn in Hw. intuition.
Qed.
Example C25_ex_run : exists n, ex_run ex_us ex_node = Ok n /\ e_ups (fn_danse n) = 2 /\ e_start (fn_danse n) = true /\ fn_yy n = 4 /\ fn_nn n = 3.
Proof. eexists. split; [vm_compute; reflexivity|]. repeat split. Qed.
Example C25_ex_before : exists n, ex_run (firstn 4 ex_us) ex_node = Ok n /\ e_ups (fn_danse n) = 0 /\ e_start (fn_danse n) = false.
Proof. eexists. split; [vm_compute; reflexivity|]. repeat split. Qed.
Example C28_ex_slots : exists n, ex_run ex_us ex_node = Ok n /\ firstn 8 (e_w (fn_danse n)) = [0; 0; 0; 0; 0; 27; 27; 36].
Proof. eexists. split; [vm_compute; reflexivity|]. vm_compute. reflexivity. Qed.
Example C28_ex_batch :
  exists bs', batch_seq (fun es k => k + fold_right Nat.add 0 es) (fun k m => 1 + m) (fun k e w => w) 4 0
    [mkBN 0 [1; 0; 0; 0; 0] [1; 0; 0; 0; 0]; mkBN 0 [2; 0; 0; 0; 0] [2; 0; 0; 0; 0]; mkBN 0 [3; 0; 0; 0; 0] [3; 0; 0; 0; 0]] = Ok bs' /\
    map (@b_w _ _) bs' = [[1; 7; 7; 7; 49]; [2; 2; 14; 14; 14]; [3; 3; 3; 27; 27]] .
Proof. eexists. split; [vm_compute; reflexivity|]. vm_compute. reflexivity. Qed.

Print Assumptions C25_updates_start_late_enough.
Print Assumptions C25_never_stops.
Print Assumptions C25_updates_at_every_event.
Print Assumptions C26_one_matrix_per_frame.
Print Assumptions C26_counters.
Print Assumptions C26_centralised_frame_lost_refuted.
Print Assumptions C28_filters_held.
Print Assumptions C28_random_start_refuted.
Print Assumptions C28_skipped_centralised_refuted.
Print Assumptions C28_batch_sequential.
Print Assumptions C28_batch_simultaneous.
