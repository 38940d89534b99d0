(** C94: speech-only and noise-only signals of batch runs. *)
From Verif Require Import Base Cx CxFacts Scm Ext Batch BatchSig BatchSigSpec BatchSigFacts4 BatchSnr BatchSnrFacts.
From Coq Require Import Reals Lra.
Open Scope cx_scope.

(** With the same filters, internal and external, applied to the speech and to the noise,
    the estimates of every node add up to that for the microphone signals. *)
Theorem C94_kept_filters nn ms nbrs ti data speech noise es w k t f :
  (forall q t f c, frame_at (data q) t f c = frame_at (speech q) t f c + frame_at (noise q) t f c) ->
  dhat nn ms nbrs ti data es w k t f = dhat nn ms nbrs ti speech es w k t f + dhat nn ms nbrs ti noise es w k t f.
Proof. intros H. apply dhat_add. exact H. Qed.
(** The estimate of node [k] is the output of a filter over all the sensors of the network:
    its own coefficients after the last iteration, those of the others through the signals
    they send, fused with the external filters in use at the beginning of that iteration;
    applied to the microphone signals, to the speech or to the noise. *)
Theorem C94_networkwide_output nn ms vads nbrs ti ref inv mode sequential iters data speech noise g bs r :
  danse_batch nn ms vads nbrs ti ref inv mode sequential iters data speech noise g bs = Ok r ->
  exists o, output nn ms vads nbrs ti ref inv mode sequential iters data speech noise g bs = Ok o /\
    forall k t f, (k < nn)%nat -> good_nbrs nn nbrs k ->
      let signals := match g with None => data | Some (mkPre SpeechOnly _) => speech | Some (mkPre NoiseOnly _) => noise end in
      o k t f = BatchSigSpec.output nn ms (fun q t m => frame_at (signals q) t f m)
        (netwide ti ms nbrs k (int_filter r iters k f) (fun q => ext_filter r (iters - 1) q f)) t.
Proof.
  intros E. unfold output. rewrite E. cbn [bind]. eexists. split; [reflexivity|]. intros k t f Hk Hg. cbv zeta beta.
  rewrite dhat_netwide by assumption. destruct g as [[[] fs]|]; reflexivity.
Qed.
(** The three runs complete. *)
Theorem C94_complete nn ms vads nbrs ti ref inv mode sequential iters data speech noise bs : length bs = nn -> (0 < nn)%nat -> ready iters bs ->
  exists dsn, signals_for_snr nn ms vads nbrs ti ref inv mode sequential iters data speech noise bs = Ok dsn.
Proof.
  intros Hn H0 Hr. unfold signals_for_snr, output.
  destruct (batch_steps nn ms vads nbrs ti ref inv mode sequential iters data speech noise None bs Hn H0 Hr) as (r & E & _).
  destruct (batch_steps nn ms vads nbrs ti ref inv mode sequential iters data speech noise (Some (mkPre NoiseOnly r)) bs Hn H0 Hr) as (r1 & E1 & _).
  destruct (batch_steps nn ms vads nbrs ti ref inv mode sequential iters data speech noise (Some (mkPre SpeechOnly r)) bs Hn H0 Hr) as (r2 & E2 & _).
  rewrite E. cbn [bind]. rewrite E1. cbn [bind]. rewrite E2. cbn [bind]. eexists. reflexivity.
Qed.
(** As the code stands the batch functions do not use the given filters: the parts do not
    add up to the output, whatever (correct) matrix inversion is used.  Here the noise is
    as strong as the speech, and its part is returned as zero. *)
Theorem C94_parts_add_up_refuted : forall inv sequential, (forall m, m O O <> czero -> inv 1%nat m O O = cinv (m O O)) ->
  exists data speech noise d s n,
    (forall q t f c, frame_at (data q) t f c = frame_at (speech q) t f c + frame_at (noise q) t f c) /\
    signals_for_snr 1 (fun _ => 1%nat) (fun _ => [true; false]) (fun _ => []) false 0 inv Fusion sequential 1 data speech noise start = Ok (d, s, n) /\
    d O O O <> s O O O + n O O O /\ frame_at (noise O) 0 O O = frame_at (speech O) 0 O O /\ n O O O = czero.
Proof.
  intros inv sequential Hinv. exists (two 2 1), (two 1 0), (two 1 1). unfold signals_for_snr.
  destruct (one_node inv sequential (two 2 1) (two 1 0) (two 1 1) None 2 1 ltac:(lra) eq_refl Hinv) as (d & Ed & Vd).
  assert (E : exists r, danse_batch 1 (fun _ => 1%nat) (fun _ => [true; false]) (fun _ => []) false 0 inv Fusion sequential 1 (two 2 1) (two 1 0) (two 1 1) None start = Ok r).
  { unfold output in Ed. destruct (danse_batch _ _ _ _ _ _ _ _ _ _ _ _ _ _ _) as [r|]; [exists r; reflexivity | discriminate]. }
  destruct E as [r E].
  destruct (one_node inv sequential (two 2 1) (two 1 0) (two 1 1) (Some (mkPre NoiseOnly r)) 1 1 ltac:(lra) eq_refl Hinv) as (n & En & Vn).
  destruct (one_node inv sequential (two 2 1) (two 1 0) (two 1 1) (Some (mkPre SpeechOnly r)) 1 0 ltac:(lra) eq_refl Hinv) as (s & Es & Vs).
  exists d, s, n. split; [|split; [rewrite E; cbn [bind]; rewrite Ed; cbn [bind]; rewrite En; cbn [bind]; rewrite Es; reflexivity | split; [|split]]].
  - intros q t f c. unfold two, frame_at. destruct t as [|[|[|]]]; cbn [nth]; apply cx_eq; cbn; lra.
  - rewrite Vd, Vn, Vs. intros H. apply (f_equal re) in H. cbn in H. lra.
  - reflexivity.
  - rewrite Vn. apply cx_eq; cbn; lra.
Qed.
(** In general, the noise-only output of a node that updates in the last iteration is zero
    at every frequency at which the noise it observes (own and received) has the same
    correlations with and without speech: with stationary noise the SNR is infinite. *)
Theorem C94_stationary_noise_vanishes nn ms vads nbrs ti ref inv mode sequential iters data speech noise given bs :
  length bs = nn -> (0 < nn)%nat -> (0 < iters)%nat -> ready iters bs ->
  exists r o, danse_batch nn ms vads nbrs ti ref inv mode sequential iters data speech noise (Some (mkPre NoiseOnly given)) bs = Ok r /\
    output nn ms vads nbrs ti ref inv mode sequential iters data speech noise (Some (mkPre NoiseOnly given)) bs = Ok o /\
    forall k f, (k < nn)%nat -> (sequential = true -> k = ((iters - 1) mod nn)%nat) ->
      (let m := tilde_covmats nn ms noise vads nbrs ti (ext_filters nn r (iters - 1)) k in forall i j, fst m f i j = snd m f i j) ->
      forall t, o k t f = czero.
Proof.
  intros Hn H0 Hi Hr.
  destruct (batch_steps nn ms vads nbrs ti ref inv mode sequential iters data speech noise (Some (mkPre NoiseOnly given)) bs Hn H0 Hr) as (r & E & _ & St).
  exists r. unfold output. rewrite E. cbn [bind]. eexists. split; [reflexivity|]. split; [reflexivity|]. cbv zeta beta. intros k f Hk Hu Hm t.
  destruct (St (iters - 1)%nat k ltac:(lia) Hk) as [S1 _]. assert (U : updates sequential nn (iters - 1) k = true).
  { unfold updates. destruct sequential; [apply Nat.eqb_eq; symmetry; exact (Hu eq_refl) | reflexivity]. }
  rewrite U in S1. replace (S (iters - 1)) with iters in S1 by lia. rewrite S1. unfold dhat. apply csum_nil. intros c _.
  unfold new_w. cbn [yin pg_purpose]. rewrite (update_w_nil _ _ _ _ _ Hm). apply cx_eq; cbn; lra.
Qed.

Example C94_ex_ready : ready 1 start /\ length start = 1%nat.
Proof. split; [intros b [<-|[]]; cbn; lia | reflexivity]. Qed.
(** stationary noise: a constant *)
Example C94_ex_stationary : forall es i j, let m := tilde_covmats 1 (fun _ => 1%nat) (two 1 1) (fun _ => [true; false]) (fun _ => []) false es 0 in
  fst m O i j = snd m O i j.
Proof. intros es i j. reflexivity. Qed.

Print Assumptions C94_kept_filters.
Print Assumptions C94_networkwide_output.
Print Assumptions C94_complete.
Print Assumptions C94_parts_add_up_refuted.
Print Assumptions C94_stationary_noise_vanishes.
