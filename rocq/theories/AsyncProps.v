(** Properties of the simulated sampling-rate offsets (C56) and of the decomposition of
    the sensor signals (C52). *)
From Verif Require Import Base BaseFacts Level Async AsyncFacts.
From Coq Require Import Reals Lra.
Local Open Scope R_scope.

(** ** C56 *)
(** Whatever the resampler returns: as many samples as before, the resampled ones
    followed by zeros if they are too few, and time stamps n / fs' of the offset clock. *)
Theorem C56_length_and_timestamps resample x fs ppm y t f : resample_for_sro resample x fs ppm = Ok (y, t, f) ->
  f = fs * (1 + ppm / 1000000) /\ length y = length x /\ length t = length x /\ (forall n, (n < length x)%nat -> nth n t 0 = INR n / f) /\
  exists xr, (if Req_EM_T fs f then xr = x else resample x fs f = Ok xr) /\ (forall n, (n < length x)%nat -> nth n y 0 = nth n xr 0).
Proof. apply sro_spec. Qed.
(** Time stamps start at zero and increase strictly. *)
Theorem C56_timestamps_increase resample x fs ppm y t f : resample_for_sro resample x fs ppm = Ok (y, t, f) -> 0 < fs -> - 1000000 < ppm ->
  (x <> [] -> nth 0 t 0 = 0) /\ forall i j, (i < j)%nat -> (j < length x)%nat -> nth i t 0 < nth j t 0.
Proof.
  intros H Hf Hp. apply sro_spec in H. destruct H as (-> & _ & _ & Ht & _). assert (F : 0 < fs * (1 + ppm / 1000000)) by (apply Rmult_lt_0_compat; lra).
  split; [intros Hx; rewrite Ht by (destruct x; [congruence | cbn; lia]); cbn [INR]; unfold Rdiv; ring|]. intros i j Hij Hj. rewrite !Ht by lia.
  apply Rmult_lt_compat_r; [apply Rinv_0_lt_compat; exact F | apply lt_INR; exact Hij].
Qed.
(** Without offset the signal is unchanged. *)
Theorem C56_no_offset_unchanged resample x fs : exists t, resample_for_sro resample x fs 0 = Ok (x, t, fs).
Proof.
  assert (E : fs * (1 + 0 / 1000000) = fs) by field. destruct (sro_total resample x fs 0 x) as [[[y t] f] Hp].
  - rewrite E. destruct (Req_EM_T fs fs); [reflexivity | congruence].
  - left. lia.
  - exists t. rewrite Hp. apply sro_spec in Hp. destruct Hp as (-> & L & _ & _ & xr & H1 & H2). rewrite E in *. destruct (Req_EM_T fs fs); [|congruence]. subst xr.
    assert (y = x) by (apply (nth_ext y x 0 0); [exact L | intros n Hn; apply H2; lia]). subst. reflexivity.
Qed.
(** All sensors of a node: same number of samples, one time axis. *)
Theorem C56_node resample M N cols fs ppm cs t f : rect M N cols -> apply_asynchronicity_at_node resample cols fs ppm = Ok (cs, t, f) ->
  (0 < M)%nat /\ rect M N cs /\ f = fs * (1 + ppm / 1000000) /\ length t = N /\ (forall n, (n < N)%nat -> nth n t 0 = INR n / f) /\
  forall m, (m < M)%nat -> exists t f, resample_for_sro resample (nth m cols []) fs ppm = Ok (nth m cs [], t, f).
Proof. apply asyncnode_spec. Qed.
(** It works as soon as the resampler returns enough samples, or at least two. *)
Theorem C56_total resample x fs ppm xr : let f := fs * (1 + ppm / 1000000) in
  (if Req_EM_T fs f then xr = x else resample x fs f = Ok xr) -> (length x <= length xr)%nat \/ (2 <= length xr)%nat -> exists p, resample_for_sro resample x fs ppm = Ok p.
Proof. apply sro_total. Qed.

(** a resampler that drops the last sample: three of four samples, one zero *)
Example C56_example : exists y t f, resample_for_sro (fun x _ _ => Ok (firstn (length x - 1) x)) [5; 6; 7; 8] 1 (-500000) = Ok (y, t, f)
  /\ y = [5; 6; 7; 0] /\ length t = 4%nat /\ nth 3 t 0 = 6.
Proof.
  assert (Hne : 1 <> 1 * (1 + -500000 / 1000000)) by lra.
  destruct (sro_total (fun x _ _ => Ok (firstn (length x - 1) x)) [5; 6; 7; 8] 1 (-500000) [5; 6; 7]) as [[[y t] f] Hp].
  - destruct (Req_EM_T _ _); [contradiction | reflexivity].
  - right. cbn. lia.
  - exists y, t, f. split; [exact Hp|]. apply sro_spec in Hp. destruct Hp as (Hf & L1 & L2 & L3 & xr & H1 & H2). split; [|split; [exact L2|]].
    + rewrite <- Hf in Hne. destruct (Req_EM_T 1 f); [contradiction|]. injection H1 as <-. cbn [length] in *.
      destruct y as [|y0 [|y1 [|y2 [|y3 [|]]]]]; try discriminate.
      pose proof (H2 0%nat ltac:(lia)). pose proof (H2 1%nat ltac:(lia)). pose proof (H2 2%nat ltac:(lia)). pose proof (H2 3%nat ltac:(lia)). cbn in *. congruence.
    + rewrite L3 by (cbn; lia). rewrite Hf. cbn [INR]. field.
Qed.

(** ** C52 *)
(** For a resampler that respects sums: at sensor [m] the noisy signal is clean speech
    plus noise-only plus the difference between that sensor's self-noise and the first
    sensor's; likewise without offsets, with a second, independent self-noise.
    [draws]: the white noises behind the self-noises; [g], [g0]: their gains. *)
Theorem C52_decomposition resample M N speech noise diffuse draws draws0 snr fs ppm ns :
  additive resample -> rect M N speech -> (forall a, noise = Some a -> rect M N a) -> (forall a, diffuse = Some a -> rect M N a) -> rect M N draws -> rect M N draws0 ->
  diffuse = None \/ fs * (1 + ppm / 1000000) = fs ->
  node_signals resample speech noise diffuse draws draws0 snr fs ppm = Ok ns ->
  exists g g0 : nat -> R, (forall m, 0 < g m /\ 0 < g0 m) /\ forall m n, (m < M)%nat -> (n < N)%nat ->
    nth n (nth m (ns_data ns) []) 0 = nth n (nth m (ns_clean ns) []) 0 + nth n (nth m (ns_noise ns) []) 0 + (g m * nth n (nth m draws []) 0 - g 0%nat * nth n (nth 0 draws []) 0) /\
    nth n (nth m (ns_data0 ns) []) 0 = nth n (nth m (ns_clean0 ns) []) 0 + nth n (nth m (ns_noise0 ns) []) 0 + (g0 m * nth n (nth m draws0 []) 0 - g 0%nat * nth n (nth 0 draws []) 0).
Proof. apply decomposition. Qed.
(** At the first sensor the mixture is the sum of speech and noise. *)
Theorem C52_first_sensor resample M N speech noise diffuse draws draws0 snr fs ppm ns :
  additive resample -> rect M N speech -> (forall a, noise = Some a -> rect M N a) -> (forall a, diffuse = Some a -> rect M N a) -> rect M N draws -> rect M N draws0 ->
  diffuse = None \/ fs * (1 + ppm / 1000000) = fs -> (0 < M)%nat ->
  node_signals resample speech noise diffuse draws draws0 snr fs ppm = Ok ns ->
  forall n, (n < N)%nat -> nth n (nth 0 (ns_data ns) []) 0 = nth n (nth 0 (ns_clean ns) []) 0 + nth n (nth 0 (ns_noise ns) []) 0.
Proof.
  intros Ha H1 H2 H3 H4 H5 Hc HM H n Hn. destruct (decomposition resample M N _ _ _ _ _ _ _ _ _ Ha H1 H2 H3 H4 H5 Hc H) as (g & g0 & _ & D). destruct (D 0%nat n HM Hn) as [-> _]. ring.
Qed.

Definition c52_rs : list R -> R -> R -> res (list R) := fun x _ _ => Ok x.
Lemma c52_additive : additive c52_rs.
Proof. intros x y f f' a b Hl Hx Hy. injection Hx as <-. injection Hy as <-. split; [exact Hl | reflexivity]. Qed.
Lemma c52_usable : usable c52_rs.
Proof. intros x f f'. exists x. split; [reflexivity | left; lia]. Qed.
Lemma c52_rect (a b : R) : rect 2 1 [[a]; [b]].
Proof. split; [reflexivity|]. intros c [<-|[<-|[]]]; reflexivity. Qed.
(** Not so at other sensors, one of which may be the reference sensor, and not so for
    the signals without offsets even at the first sensor. *)
Theorem C52_other_sensors_refuted : exists resample speech noise draws draws0 ns, additive resample /\ rect 2 1 speech /\ rect 2 1 noise /\ rect 2 1 draws /\ rect 2 1 draws0 /\
  node_signals resample speech (Some noise) None draws draws0 30 16000 0 = Ok ns /\
  nth 0 (nth 1 (ns_data ns) []) 0 <> nth 0 (nth 1 (ns_clean ns) []) 0 + nth 0 (nth 1 (ns_noise ns) []) 0 /\
  nth 0 (nth 0 (ns_data0 ns) []) 0 <> nth 0 (nth 0 (ns_clean0 ns) []) 0 + nth 0 (nth 0 (ns_noise0 ns) []) 0.
Proof.
  assert (Hno : forall a, Some [[1]; [1]] = Some a -> rect 2 1 a) by (intros a H; injection H as <-; apply c52_rect).
  assert (Hdi : forall a : list (list R), None = Some a -> rect 2 1 a) by discriminate.
  destruct (node_signals_total c52_rs 2 1 [[1]; [1]] (Some [[1]; [1]]) None [[1]; [-1]] [[-1]; [1]] 30 16000 0 c52_usable ltac:(lia) (c52_rect _ _) Hno Hdi (c52_rect _ _)) as [ns H].
  exists c52_rs, [[1]; [1]], [[1]; [1]], [[1]; [-1]], [[-1]; [1]], ns. split; [exact c52_additive|]. do 4 (split; [apply c52_rect|]). split; [exact H|].
  destruct (decomposition c52_rs 2 1 _ _ _ _ _ _ _ _ _ c52_additive (c52_rect _ _) Hno Hdi (c52_rect _ _) (c52_rect _ _) (or_introl eq_refl) H) as (g & g0 & Hg & D).
  destruct (D 1%nat 0%nat ltac:(lia) ltac:(lia)) as [D1 _]. destruct (D 0%nat 0%nat ltac:(lia) ltac:(lia)) as [_ D0]. destruct (Hg 0%nat) as [G0 G00]. destruct (Hg 1%nat) as [G1 _].
  rewrite D1, D0. cbn [nth]. split; lra.
Qed.
Example C52_example : exists ns, node_signals c52_rs [[1]; [2]] (Some [[3]; [4]]) (Some [[5]; [6]]) [[1]; [-1]] [[-1]; [1]] 30 16000 0 = Ok ns
  /\ 16000 * (1 + 0 / 1000000) = 16000 /\ nth 0 (nth 0 (ns_data ns) []) 0 = nth 0 (nth 0 (ns_clean ns) []) 0 + nth 0 (nth 0 (ns_noise ns) []) 0.
Proof.
  assert (Hno : forall a, Some [[3]; [4]] = Some a -> rect 2 1 a) by (intros a H; injection H as <-; apply c52_rect).
  assert (Hdi : forall a, Some [[5]; [6]] = Some a -> rect 2 1 a) by (intros a H; injection H as <-; apply c52_rect).
  destruct (node_signals_total c52_rs 2 1 [[1]; [2]] (Some [[3]; [4]]) (Some [[5]; [6]]) [[1]; [-1]] [[-1]; [1]] 30 16000 0 c52_usable ltac:(lia) (c52_rect _ _) Hno Hdi (c52_rect _ _)) as [ns H].
  exists ns. split; [exact H|]. assert (E : 16000 * (1 + 0 / 1000000) = 16000) by field. split; [exact E|].
  apply (C52_first_sensor c52_rs 2 1 _ _ _ _ _ _ _ _ _ c52_additive (c52_rect _ _) Hno Hdi (c52_rect _ _) (c52_rect _ _) (or_intror E) ltac:(lia) H). lia.
Qed.

Print Assumptions C56_length_and_timestamps.
Print Assumptions C56_timestamps_increase.
Print Assumptions C56_no_offset_unchanged.
Print Assumptions C56_node.
Print Assumptions C56_total.
Print Assumptions C52_decomposition.
Print Assumptions C52_first_sensor.
Print Assumptions C52_other_sensors_refuted.
