(** C97: the closed loop of resampling, estimation and control. *)
From Verif Require Import Base Dxcp Resamp ResampFacts ResampProps Phat PhatProps Loop LoopSpec LoopFacts LoopFacts2 LoopFacts3 LoopFacts4.
From Coq Require Import Reals Lra.
Local Open Scope R_scope.

(** No frames make the loop fail.  With the simple controller the estimate stays within 100
    ppm; the resampler stays within its buffer. *)
Theorem C97_total_simple c frame inp : usable c -> (0 < frame)%nat -> frames_ok frame inp ->
  exists outs st', simple_loop c frame inp = Ok (outs, st') /\ length outs = length inp /\
    forall o, In o outs -> length (o_frame o) = frame /\ -100 <= o_est o <= 100 /\ - INR frame - 1 / 2 <= o_shift o <= INR frame - 1 / 2.
Proof.
  intros HU HF Hf. destruct (total_run c frame simple_ctrl snd (fun ct => -100 <= snd ct <= 100) (0, 0) inp HU HF Hf) as (outs & st' & E & L & G & _).
  - cbn. lra.
  - intros. apply simple_limits.
  - exists outs, st'. split; [exact E|]. split; [exact L|]. intros o Hi. destruct (G o Hi) as (G1 & (ct & G2 & ->) & G3). split; [exact G1|]. split; [exact G2 | exact G3].
Qed.
Theorem C97_total_imc c frame k1 k2 c1 c2 delay inp : usable c -> (0 < frame)%nat -> frames_ok frame inp ->
  exists outs st', imc_loop c frame k1 k2 c1 c2 delay inp = Ok (outs, st') /\ length outs = length inp /\
    forall o, In o outs -> length (o_frame o) = frame /\ - INR frame - 1 / 2 <= o_shift o <= INR frame - 1 / 2.
Proof.
  intros HU HF Hf. destruct (total_run c frame (imc_step k1 k2 c1 c2 delay) imc_out (fun _ => True) imc_new inp HU HF Hf I (fun _ _ _ _ => I)) as (outs & st' & E & L & G & _).
  exists outs, st'. split; [exact E|]. split; [exact L|]. intros o Hi. destruct (G o Hi) as (G1 & _ & G3). split; assumption.
Qed.
(** The frames put out are those of the resampler for the negated estimate of the frame
    before. *)
Theorem C97_resampled_simple c frame inp outs st : usable c -> (0 < frame)%nat -> frames_ok frame inp -> simple_loop c frame inp = Ok (outs, st) ->
  exists routs rst, rs_run frame (rs_new frame) (fed 0 (map (fun p => snd (fst p)) inp) (map o_est outs)) = Ok (routs, rst) /\ map fst routs = map o_frame outs.
Proof.
  intros HU HF Hf E. destruct (total_run c frame simple_ctrl snd (fun _ => True) (0, 0) inp HU HF Hf I (fun _ _ _ _ => I)) as (outs' & st' & E' & _ & _ & routs & Er & Em).
  unfold simple_loop in E. rewrite E in E'. injection E' as <- <-. exists routs, (snd (l_sync st)). split; [exact Er | exact Em].
Qed.
Theorem C97_resampled_imc c frame k1 k2 c1 c2 delay inp outs st : usable c -> (0 < frame)%nat -> frames_ok frame inp -> imc_loop c frame k1 k2 c1 c2 delay inp = Ok (outs, st) ->
  exists routs rst, rs_run frame (rs_new frame) (fed 0 (map (fun p => snd (fst p)) inp) (map o_est outs)) = Ok (routs, rst) /\ map fst routs = map o_frame outs.
Proof.
  intros HU HF Hf E. destruct (total_run c frame (imc_step k1 k2 c1 c2 delay) imc_out (fun _ => True) imc_new inp HU HF Hf I (fun _ _ _ _ => I)) as (outs' & st' & E' & _ & _ & routs & Er & Em).
  unfold imc_loop in E. rewrite E in E'. injection E' as <- <-. exists routs, (snd (l_sync st)). split; [exact Er | exact Em].
Qed.
(** The raw estimates are those of the estimator for the reference, delayed by two frames,
    and the frames put out; the estimates are those of the controller for the activities and
    the raw estimates so far. *)
Theorem C97_parts_simple c frame inp outs st : usable c -> (0 < frame <= shift c)%nat -> (frame <= size c)%nat -> frames_ok frame inp -> simple_loop c frame inp = Ok (outs, st) ->
  let reference := repeat 0 frame :: repeat 0 frame :: map (fun p => fst (fst p)) inp in
  forall k o, nth_error outs k = Some o ->
    (exists s, updates c 0 (st0 c) (seen (size c) (shift c / frame) reference (map o_frame outs) (S k / (shift c / frame))) = Ok s /\ o_raw o = sro s) /\
    o_est o = snd (fold_left (fun ct p => simple_ctrl ct (fst p) (snd p)) (firstn (S k) (combine (map snd inp) (map o_raw outs))) (0, 0)).
Proof. intros HU HF HS Hf E. exact (loop_parts c frame _ _ _ inp outs st HU HF HS Hf E). Qed.
Theorem C97_parts_imc c frame k1 k2 c1 c2 delay inp outs st : usable c -> (0 < frame <= shift c)%nat -> (frame <= size c)%nat -> frames_ok frame inp -> imc_loop c frame k1 k2 c1 c2 delay inp = Ok (outs, st) ->
  let reference := repeat 0 frame :: repeat 0 frame :: map (fun p => fst (fst p)) inp in
  forall k o, nth_error outs k = Some o ->
    (exists s, updates c 0 (st0 c) (seen (size c) (shift c / frame) reference (map o_frame outs) (S k / (shift c / frame))) = Ok s /\ o_raw o = sro s) /\
    o_est o = imc_out (fold_left (fun ct p => imc_step k1 k2 c1 c2 delay ct (fst p) (snd p)) (firstn (S k) (combine (map snd inp) (map o_raw outs))) imc_new).
Proof. intros HU HF HS Hf E. exact (loop_parts c frame _ _ _ inp outs st HU HF HS Hf E). Qed.
(** Until the estimator has settled, the second channel comes out unchanged two frames later
    and both offsets are reported as zero. *)
Theorem C97_waits_simple c frame inp : usable c -> (0 < frame <= shift c)%nat -> frames_ok frame inp ->
  (length inp / (shift c / frame) < accum_frames c + 1 + (size c / shift c - 1) + add_wait c + settle c)%nat ->
  exists outs st, simple_loop c frame inp = Ok (outs, st) /\ (forall o, In o outs -> o_raw o = 0 /\ o_est o = 0) /\
    map o_frame outs = firstn (length inp) (repeat 0 frame :: repeat 0 frame :: map (fun p => snd (fst p)) inp).
Proof.
  intros HU HF Hf HW. destruct (waits c frame simple_ctrl snd HU ltac:(lia) (fun ct => ct = (0, 0)) (0, 0) inp) as (outs & st & E & _ & G & M); try assumption; try reflexivity.
  - intros ct ->. reflexivity.
  - intros ct a ->. apply simple_rest. right. reflexivity.
  - apply Nat.div_str_pos. lia.
  - exists outs, st. split; [exact E|]. split; assumption.
Qed.
Theorem C97_waits_imc c frame k1 k2 c1 c2 delay inp : usable c -> (0 < frame <= shift c)%nat -> frames_ok frame inp ->
  (length inp / (shift c / frame) < accum_frames c + 1 + (size c / shift c - 1) + add_wait c + settle c)%nat ->
  exists outs st, imc_loop c frame k1 k2 c1 c2 delay inp = Ok (outs, st) /\ (forall o, In o outs -> o_raw o = 0 /\ o_est o = 0) /\
    map o_frame outs = firstn (length inp) (repeat 0 frame :: repeat 0 frame :: map (fun p => snd (fst p)) inp).
Proof.
  intros HU HF Hf HW. destruct (waits c frame (imc_step k1 k2 c1 c2 delay) imc_out HU ltac:(lia) at_rest imc_new inp) as (outs & st & E & _ & G & M); try assumption.
  - split; reflexivity.
  - intros ct [_ H]. unfold imc_out. rewrite H. reflexivity.
  - intros ct a H. apply imc_rest; [right; reflexivity | exact H].
  - apply Nat.div_str_pos. lia.
  - exists outs, st. split; [exact E|]. split; assumption.
Qed.
(** The same for ever if coherence is never found active. *)
Theorem C97_inactive_simple c frame inp : usable c -> (0 < frame)%nat -> frames_ok frame inp -> (forall x0 x1 a, In (x0, x1, a) inp -> a = 0) ->
  exists outs st, simple_loop c frame inp = Ok (outs, st) /\ (forall o, In o outs -> o_est o = 0) /\
    map o_frame outs = firstn (length inp) (repeat 0 frame :: repeat 0 frame :: map (fun p => snd (fst p)) inp).
Proof.
  intros HU HF Hf Ha. destruct (inactive c frame simple_ctrl snd HU HF (fun ct => ct = (0, 0)) (0, 0) 0 inp) as (outs & st & E & _ & G & M); try assumption; try reflexivity.
  - intros ct ->. reflexivity.
  - intros ct r ->. apply simple_rest. left. reflexivity.
  - exists outs, st. split; [exact E|]. split; assumption.
Qed.
Theorem C97_inactive_imc c frame k1 k2 c1 c2 delay inp : usable c -> (0 < frame)%nat -> frames_ok frame inp -> (forall x0 x1 a, In (x0, x1, a) inp -> a = false) ->
  exists outs st, imc_loop c frame k1 k2 c1 c2 delay inp = Ok (outs, st) /\ (forall o, In o outs -> o_est o = 0) /\
    map o_frame outs = firstn (length inp) (repeat 0 frame :: repeat 0 frame :: map (fun p => snd (fst p)) inp).
Proof.
  intros HU HF Hf Ha. destruct (inactive c frame (imc_step k1 k2 c1 c2 delay) imc_out HU HF at_rest imc_new false inp) as (outs & st & E & _ & G & M); try assumption.
  - split; reflexivity.
  - intros ct [_ H]. unfold imc_out. rewrite H. reflexivity.
  - intros ct r H. apply imc_rest; [left; reflexivity | exact H].
  - exists outs, st. split; [exact E|]. split; assumption.
Qed.
(** As the code stands, a silent reference does not leave the signals alone: ten frames after
    the start of the estimation the loop compensates an offset of -100 ppm. *)
Theorem C97_silence_refuted c inp : usable c -> (0 < shift c)%nat -> (0 < b_samples c)%nat -> (1000 <= sro_max c)%nat -> frames_ok (shift c) inp ->
  (forall x0 x1 a, In (x0, x1, a) inp -> a = 1 /\ forall v, In v x0 -> v = 0) ->
  exists outs st, simple_loop c (shift c) inp = Ok (outs, st) /\ length outs = length inp /\
    forall k o, nth_error outs k = Some o -> (accum_frames c + 1 + (size c / shift c - 1) + add_wait c + settle c + 9 <= S k)%nat -> o_est o = -100.
Proof. exact (silent_loop c inp). Qed.

(** A small estimator: 16 Hz, shift 8, transforms of 16 samples, one second of accumulation. *)
Definition small : config := mkCfg 16 8 8 1 (1 / 2) (1 / 2) (1 / 2) 0 1 1 1000 2 (fun _ => 1).
Example C97_ex_config : usable small /\ (0 < shift small)%nat /\ (0 < b_samples small)%nat /\ (1000 <= sro_max small)%nat.
Proof.
  assert (B : b_samples small = 16%nat) by reflexivity.
  assert (E : lambda small = 1%nat).
  { unfold lambda. rewrite B. rewrite Nat.div_small; [reflexivity|]. apply Nat2Z.inj_lt. rewrite Nat2Z.inj_mul, Nat2Z.inj_pow. reflexivity. }
  unfold usable. rewrite E, B. cbn [small ups half shift sro_max]. lia.
Qed.
Example C97_ex : exists outs st, simple_loop small 8 (repeat (repeat 1 8, repeat 2 8, 1) 4) = Ok (outs, st) /\
  map o_frame outs = [repeat 0 8; repeat 0 8; repeat 2 8; repeat 2 8].
Proof.
  destruct (C97_waits_simple small 8 (repeat (repeat 1 8, repeat 2 8, 1) 4)) as (outs & st & E & _ & M).
  - apply C97_ex_config.
  - cbn. lia.
  - intros x0 x1 a H. apply repeat_spec in H. injection H as -> -> ->. split; reflexivity.
  - vm_compute. lia.
  - exists outs, st. split; [exact E|]. rewrite M. reflexivity.
Qed.
Example C97_ex_silent : exists outs st o, simple_loop small 8 (repeat (repeat 0 8, repeat 1 8, 1) 20) = Ok (outs, st) /\ nth_error outs 13 = Some o /\ o_est o = -100.
Proof.
  destruct C97_ex_config as (U & H1 & H2 & H3).
  destruct (C97_silence_refuted small (repeat (repeat 0 8, repeat 1 8, 1) 20) U H1 H2 H3) as (outs & st & E & L & G).
  - intros x0 x1 a H. apply repeat_spec in H. injection H as -> -> ->. split; reflexivity.
  - intros x0 x1 a H. apply repeat_spec in H. injection H as -> -> ->. split; [reflexivity|]. intros v Hv. exact (repeat_spec 8 0 v Hv).
  - rewrite repeat_length in L. destruct (nth_error outs 13) as [o|] eqn:N; [|apply nth_error_None in N; lia]. exists outs, st, o. split; [exact E|]. split; [exact N|].
    apply (G 13%nat o N). vm_compute. lia.
Qed.
(** The estimator's view: frames of one sample, looked at every two frames. *)
Example C97_ex_seen : map (fun b => (map (fst b) [0; 1; 2; 3]%nat, map (snd b) [0; 1; 2; 3]%nat)) (seen 4 2 [[1]; [2]; [3]; [4]; [5]; [6]] [[11]; [12]; [13]; [14]; [15]; [16]] 3) =
  [([0; 0; 1; 2], [0; 0; 11; 12]); ([1; 2; 3; 4], [11; 12; 13; 14]); ([3; 4; 5; 6], [13; 14; 15; 16])].
Proof. reflexivity. Qed.
