(** C77: speech enhancement metrics. *)
From Verif Require Import Base BaseFacts Eval EvalSpec EvalFacts EvalFacts2.
From Coq Require Import Reals Lra.
Local Open Scope R_scope.

(** The SNR is ten times the logarithm of the ratio of the energies of the speech and noise
    signals, whatever the VAD. *)
Theorem C77_snr_value s n vad : length s = length n -> 0 < energy s -> 0 < energy n ->
  get_snr s n vad true = Ok (Fin (10 * log10 (energy s / energy n))).
Proof. exact (snr_value s n vad). Qed.

(** What is computed: SNR and weighted SNR of the speech and noise parts, the other measures
    between the clean speech of the microphone and the estimate, all over the window, for the
    microphone, DANSE, centralised, local and single-sensor signals (PESQ: see below for the
    last one). *)
Theorem C77_values L g fs vad a b gamma fLen k ms : get_metrics L g fs vad a b gamma fLen k = Ok ms ->
  let clean := py_slice a b (p_s (g_noisy g)) in
  (forall m, o_snr ms = Some m -> reports a b g (fun _ s n => get_snr s n None false) true m) /\
  (forall m, o_sisnr ms = Some m -> reports a b g (fun _ s n => get_sisnr (l_bp L) s n None fs false) true m) /\
  (forall m, o_stoi ms = Some m -> reports a b g (fun e _ _ => Ok (Fin (l_stoi L clean e fs))) true m) /\
  (forall m, o_pesq ms = Some m -> fs = 8000 \/ fs = 16000 -> reports a b g (fun e _ _ => Ok (Fin (l_pesq L fs clean e))) false m) /\
  (forall m, o_fw ms = Some m -> reports a b g (fun e _ _ => if Nat.eqb (length clean) (length e) then Ok (mean (map (fun x => Rmin 35 (Rmax 0 x)) (l_raw L clean e fs fLen gamma (/ 5)))) else Err ValueError) true m).
Proof.
  intros H clean. apply get_metrics_ok in H. destruct H as (v & -> & H1 & H2 & H3 & H4 & H5).
  assert (K : forall ev ev' evb val ss m, (forall p, ev (trim a b p) = val (py_slice a b (p_enh p)) (py_slice a b (p_s p)) (py_slice a b (p_n p))) ->
    (ss = true -> forall p, ev' (trim a b p) = val (py_slice a b (p_enh p)) (py_slice a b (p_s p)) (py_slice a b (p_n p))) ->
    one_metric ev ev' evb (trimmed a b g) = Ok m -> reports a b g val ss m).
  { intros ev ev' evb val ss m Hv Hs E. destruct (one_metric_ok _ _ _ _ _ E) as (Eb & Ea & _ & Ec & El & Es & _). unfold trimmed in *. cbn [g_noisy g_danse g_centr g_local g_ssbc] in *. unfold reports. rewrite <- !Hv.
    split; [exact Eb|]. split; [exact Ea|]. split; [intros p Hp; rewrite Hp in Ec; rewrite <- Hv; exact Ec|]. split; [intros p Hp; rewrite Hp in El; rewrite <- Hv; exact El|].
    intros T p Hp. rewrite Hp in Es. rewrite <- (Hs T). exact Es. }
  split; [|split; [|split; [|split]]]; intros m Hm.
  - pose proof (proj2 (if_asked_ok _ _ _ H1 m Hm)) as E. eapply K; [| |exact E]; intros; reflexivity.
  - pose proof (proj2 (if_asked_ok _ _ _ H2 m Hm)) as E. eapply K; [| |exact E]; intros; reflexivity.
  - pose proof (proj2 (if_asked_ok _ _ _ H4 m Hm)) as E. eapply K; [| |exact E]; intros; reflexivity.
  - intros F. pose proof (proj2 (if_asked_ok _ _ _ H5 m Hm)) as E. replace (known_fs fs) with true in E.
    + eapply K; [| |exact E]; [intros; reflexivity|discriminate].
    + unfold known_fs. destruct (Req_EM_T fs 8000); [reflexivity|]. destruct (Req_EM_T fs 16000); [reflexivity|tauto].
  - pose proof (proj2 (if_asked_ok _ _ _ H3 m Hm)) as E. eapply K; [| |exact E]; [intros p|intros _ p]; unfold fw_ev, get_fwsnrseg, clip35; cbn [trimmed trim g_noisy p_s p_enh]; fold clean; destruct (Nat.eqb _ _); reflexivity.
Qed.

(** The best performance, when there is one, is evaluated in the same way over the window
    less a fifth of a second at each end. *)
Theorem C77_best L g fs vad a b gamma fLen k ms x : get_metrics L g fs vad a b gamma fLen k = Ok ms -> g_best g = Some x ->
  let cut := py_slice (a + Int_part (/ 5 * fs)) (b - Int_part (/ 5 * fs)) in
  (forall m, o_snr ms = Some m -> exists v, m_best m = Some v /\ get_snr (cut (b_s x)) (cut (b_n x)) None false = Ok v) /\
  (forall m, o_sisnr ms = Some m -> exists v, m_best m = Some v /\ get_sisnr (l_bp L) (cut (b_s x)) (cut (b_n x)) None (b_fs x) false = Ok v) /\
  (forall m, o_stoi ms = Some m -> m_best m = Some (Fin (l_stoi L (cut (b_clean x)) (cut (b_d x)) (b_fs x)))).
Proof.
  intros H Hx cut. apply get_metrics_ok in H. destruct H as (v & -> & H1 & H2 & H3 & H4 & H5).
  assert (K : forall ev ev' evb m, one_metric ev ev' evb (trimmed a b g) = Ok m -> exists v, m_best m = Some v /\ evb x = Ok v).
  { intros ev ev' evb m E. apply one_metric_best in E. unfold trimmed in E. cbn [g_best] in E. now rewrite Hx in E. }
  split; [|split]; intros m Hm.
  - exact (K _ _ _ m (proj2 (if_asked_ok _ _ _ H1 m Hm))).
  - exact (K _ _ _ m (proj2 (if_asked_ok _ _ _ H2 m Hm))).
  - destruct (K _ _ _ m (proj2 (if_asked_ok _ _ _ H4 m Hm))) as (w & -> & E). now injection E as <-.
Qed.

(** Gains on speech and noise change the SNR and the weighted SNR by the difference of their
    levels (the weights add up to one), for all band-pass filters that are homogeneous. *)
Theorem C77_gains bp s n vad fs x g h : g <> 0 -> h <> 0 ->
  (get_snr s n vad true = Ok (Fin x) -> get_snr (gain g s) (gain h n) vad true = Ok (Fin (x + (level g - level h)))) /\
  ((forall lo hi g x, bp lo hi (gain g x) = gain g (bp lo hi x)) ->
   get_sisnr bp s n vad fs true = Ok (Fin x) -> get_sisnr bp (gain g s) (gain h n) vad fs true = Ok (Fin (x + (level g - level h)))).
Proof. intros Hg Hh. split; [intros H; now apply snr_gain with vad|intros HB H; now apply sisnr_gain with vad]. Qed.

(** Every metric reports the difference between the value after and the value before. *)
Theorem C77_differences L g fs vad a b gamma fLen k ms m :
  get_metrics L g fs vad a b gamma fLen k = Ok ms -> In (Some m) (computed ms) -> m_diff m = xsub (m_after m) (m_before m).
Proof.
  intros H I. apply get_metrics_ok in H. destruct H as (v & -> & H). exact (proj1 (metrics_each L g fs v a b gamma fLen k ms H m I)).
Qed.

(** The improvement of the SNR that is reported for a processing that applies one gain to
    speech and another one to noise is the difference of their levels. *)
Theorem C77_improvement L g fs vad a b gamma fLen k ms m x gs gn :
  get_metrics L g fs vad a b gamma fLen k = Ok ms -> o_snr ms = Some m -> m_before m = Fin x -> gs <> 0 -> gn <> 0 ->
  p_s (g_danse g) = gain gs (p_s (g_noisy g)) -> p_n (g_danse g) = gain gn (p_n (g_noisy g)) ->
  m_after m = Fin (x + (level gs - level gn)) /\ exists d, m_diff m = Fin d /\ d = level gs - level gn.
Proof.
  intros H Hm Hx Hg Hh Es En. apply get_metrics_ok in H. destruct H as (v & -> & H1 & _). destruct (if_asked_ok _ _ _ H1 m Hm) as [_ E].
  destruct (one_metric_ok _ _ _ _ _ E) as (Eb & Ea & Ed & _). cbn [trimmed g_noisy g_danse trim p_s p_n] in Eb, Ea. rewrite Es, En, !slice_gain in Ea. rewrite Hx in Eb.
  rewrite (snr_gain _ _ _ _ x gs gn Hg Hh Eb) in Ea. injection Ea as Ea. rewrite Ed, <- Ea, Hx. split; [reflexivity|]. eexists. split; [reflexivity|]. ring.
Qed.

(** A processing that changes nothing improves nothing: all metrics keep their value. *)
Theorem C77_no_processing L g fs vad a b gamma fLen k ms m :
  get_metrics L g fs vad a b gamma fLen k = Ok ms -> g_danse g = g_noisy g -> In (Some m) (computed ms) ->
  m_after m = m_before m /\ forall x, m_before m = Fin x -> m_diff m = Fin 0.
Proof.
  intros H E I. apply get_metrics_ok in H. destruct H as (v & -> & H). destruct (metrics_each L g fs v a b gamma fLen k ms H m I) as (D & S & _).
  split; [now apply S|]. intros x Hx. rewrite D, (S E), Hx. cbn. f_equal. ring.
Qed.

(** The metrics depend only on the samples of the window, and not on the VAD. *)
Theorem C77_window_only L g g' fs v v' a b gamma fLen k :
  same_window a b (g_noisy g) (g_noisy g') -> same_window a b (g_danse g) (g_danse g') -> same_window_opt a b (g_centr g) (g_centr g') ->
  same_window_opt a b (g_local g) (g_local g') -> same_window_opt a b (g_ssbc g) (g_ssbc g') -> g_best g = g_best g' ->
  get_metrics L g fs (Some v) a b gamma fLen k = get_metrics L g' fs (Some v') a b gamma fLen k.
Proof. exact (metrics_window L g g' fs v v' a b gamma fLen k). Qed.

(** Frequency-weighted segmental SNRs are between 0 and 35 dB, for all spectra (nan if the
    window is shorter than a frame). *)
Theorem C77_fwsnrseg_range L g fs vad a b gamma fLen k ms m :
  get_metrics L g fs vad a b gamma fLen k = Ok ms -> o_fw ms = Some m ->
  forall x, In x [m_before m; m_after m; m_afterCentr m; m_afterLocal m; m_afterSSBC m] -> x = NaN \/ exists r, x = Fin r /\ 0 <= r <= 35.
Proof.
  intros H Hm. apply get_metrics_ok in H. destruct H as (v & -> & _ & _ & H & _). destruct (if_asked_ok _ _ _ H m Hm) as [_ E].
  destruct (one_metric_ok _ _ _ _ _ E) as (Eb & Ea & _ & Ec & El & Es & _). exact (fw_values L _ fs gamma fLen _ m Eb Ea Ec El Es).
Qed.

(** ** As the code stands *)

(** The differences for centralised, local and single-sensor processing are never computed. *)
Theorem C77_other_differences_refuted L g fs vad a b gamma fLen k ms m :
  get_metrics L g fs vad a b gamma fLen k = Ok ms -> In (Some m) (computed ms) ->
  m_diffLocal m = Fin 0 /\ m_diffCentr m = Fin 0 /\ m_diffSSBC m = Fin 0.
Proof.
  intros H I. apply get_metrics_ok in H. destruct H as (v & -> & H). exact (proj2 (proj2 (metrics_each L g fs v a b gamma fLen k ms H m I))).
Qed.

(** The exponent gamma of fwSNRseg is used as the overlap of its frames, the exponent is
    always 0.2: for a measure that does not depend on the overlap, gamma has no effect, and
    for one that does not depend on the exponent, it is all that matters. *)
Theorem C77_gamma_refuted L g fs vad a b gamma gamma' fLen k :
  (forall c x f l o o' e, l_raw L c x f l o e = l_raw L c x f l o' e) ->
  get_metrics L g fs vad a b gamma fLen k = get_metrics L g fs vad a b gamma' fLen k.
Proof. exact (gamma_unused L g fs vad a b gamma gamma' fLen k). Qed.

(** The bands of the weighted SNR lie below the frequencies they are named after (by a factor
    of two pi). *)
Theorem C77_bands_refuted fc fs : 0 < fc -> 0 < fs ->
  let '(lo, hi) := band_edges fc fs in hertz lo fs < hertz hi fs < fc /\ sqrt (hertz lo fs * hertz hi fs) = fc / (2 * PI).
Proof. exact (bands fc fs). Qed.

(** The dynamic SNR takes the VAD for the noise: a plain gain on the microphone signal is
    reported as an improvement, whatever the signal. *)
Theorem C77_dynamic_snr_refuted noisy vad g x d : g <> 0 ->
  dynamic_snr noisy noisy vad = Ok (Fin x, Fin x, Fin d) ->
  dynamic_snr noisy (gain g noisy) vad = Ok (Fin x, Fin (x + level g), Fin (level g)).
Proof.
  intros Hg H. unfold dynamic_snr in *. cbv zeta in *. set (v := map (fun b : bool => if b then 1 else 0) vad) in *. apply bind_ok in H. destruct H as (b & E & H). rewrite E in H. cbn [bind] in H. injection H as -> _.
  rewrite E. cbn [bind]. rewrite get_snr_none in *. pose proof (snr_gain noisy v None None x g 1 Hg R1_neq_R0 E) as G.
  replace (gain 1 v) with v in G by (unfold gain; rewrite <- (map_id v) at 1; apply map_ext; intros r; ring). rewrite G. cbn [bind xsub].
  assert (L1 : level 1 = 0) by (unfold level, log10; rewrite Rabs_R1, ln_1; unfold Rdiv; ring). rewrite L1. do 3 f_equal; [f_equal|]; ring.
Qed.

(** The PESQ of single-sensor processing is computed against the filtered speech: the same
    output as that of DANSE gets another value. *)
Theorem C77_pesq_ssbc_refuted : exists L g fs vad a b gamma fLen k ms m,
  g_ssbc g = Some (g_danse g) /\ get_metrics L g fs vad a b gamma fLen k = Ok ms /\ o_pesq ms = Some m /\ m_afterSSBC m <> m_after m.
Proof.
  exists (mkL (fun _ _ x => x) (fun _ _ _ _ _ _ => []) (fun _ _ _ => 0) (fun _ c _ => rsum c)).
  exists (mkG (mkP [3] [1] [2]) (mkP [1] [0] [1]) None None (Some (mkP [1] [0] [1])) None), 8000, (Some [true]), 0%Z, 1%Z, 0, 0, (mkA false false false false true).
  unfold get_metrics. cbv zeta. cbn [if_asked k_snr k_sisnr k_fw k_stoi k_pesq bind]. destruct (Req_EM_T 8000 8000); [|congruence].
  cbn [one_metric g_noisy g_danse g_centr g_local g_ssbc g_best option_map opt bind]. eexists. eexists. split; [reflexivity|]. split; [reflexivity|]. split; [reflexivity|].
  cbn. intros H. injection H as H. lra.
Qed.

(** No VAD (the default of the parameter) is refused. *)
Theorem C77_without_vad_refuted L g fs a b gamma fLen k : get_metrics L g fs None a b gamma fLen k = Err TypeError.
Proof. reflexivity. Qed.

(** ** Two samples of speech and noise; speech kept, noise divided by ten: 20 dB *)
Lemma c77_log : log10 10 = 1.
Proof. unfold log10. pose proof ln10. field. lra. Qed.
Definition c77_lib : library := mkL (fun _ _ x => x) (fun _ _ _ _ _ _ => [50; -3]) (fun _ _ _ => 0) (fun _ c _ => rsum c).
Definition c77_signals : signals :=
  mkG (mkP [9; 2; 0] [9; 1; 1] [9; 1; -1]) (mkP [7; 1; 1] (gain 1 [9; 1; 1]) (gain (/ 10) [9; 1; -1])) None None None None.
Example C77_ex_snr : get_snr [3; 0] [0; 3] None true = Ok (Fin 0).
Proof. rewrite C77_snr_value by (unfold energy, rsum; cbn; lra || reflexivity). do 2 f_equal. replace (energy [3; 0] / energy [0; 3]) with 1 by (unfold energy, rsum; cbn; field). unfold log10. rewrite ln_1. unfold Rdiv. ring. Qed.
Example C77_ex_improvement : exists ms m, get_metrics c77_lib c77_signals 8000 (Some [true; false; true]) 1 3 (/ 5) 1 (mkA true false true false false) = Ok ms /\
  o_snr ms = Some m /\ m_before m = Fin 0 /\ m_diff m = Fin 20 /\ exists m', o_fw ms = Some m' /\ m_after m' = Fin (35 / 2).
Proof.
  assert (B : get_snr [1; 1] [1; -1] (Some [false; true]) true = Ok (Fin 0)).
  { rewrite C77_snr_value by (unfold energy, rsum; cbn; lra || reflexivity). do 2 f_equal. replace (energy [1; 1] / energy [1; -1]) with 1 by (unfold energy, rsum; cbn; field). unfold log10. rewrite ln_1. unfold Rdiv. ring. }
  assert (A : get_snr (gain 1 [1; 1]) (gain (/ 10) [1; -1]) (Some [false; true]) true = Ok (Fin 20)).
  { rewrite (proj1 (C77_gains (fun _ _ x => x) [1; 1] [1; -1] (Some [false; true]) 0 0 1 (/ 10) ltac:(lra) ltac:(lra)) B). do 2 f_equal. unfold level.
    rewrite Rabs_R1, (Rabs_pos_eq (/ 10)) by lra. rewrite log10_inv by lra. rewrite c77_log. unfold log10. rewrite ln_1. field. pose proof ln10. lra. }
  unfold get_metrics. cbv zeta. cbn [if_asked k_snr k_sisnr k_fw k_stoi k_pesq c77_signals g_noisy g_danse g_centr g_local g_ssbc g_best option_map trim p_s p_n p_enh]. unfold trim. cbn [p_s p_n p_enh]. rewrite !slice_gain.
  change (py_slice 1 3 [9; 1; 1]) with [1; 1]. change (py_slice 1 3 [9; 1; -1]) with [1; -1]. change (py_slice 1 3 [true; false; true]) with [false; true].
  change (py_slice 1 3 [9; 2; 0]) with [2; 0]. change (py_slice 1 3 [7; 1; 1]) with [1; 1].
  unfold one_metric. cbn [g_noisy g_danse g_centr g_local g_ssbc g_best opt p_s p_n p_enh]. rewrite B, A. cbn [bind opt]. unfold get_fwsnrseg. cbn [length Nat.eqb bind c77_lib l_raw].
  eexists. eexists. split; [reflexivity|]. cbn [o_snr o_fw m_before m_diff xsub]. split; [reflexivity|]. split; [reflexivity|]. split; [cbn [m_diff xsub]; f_equal; ring|]. eexists. split; [reflexivity|]. cbn [m_after].
  cbn [map mean length rsum fold_right]. f_equal. unfold clip35. rewrite (Rmax_right 0 50), (Rmin_left 35 50), (Rmax_left 0 (-3)), (Rmin_right 35 0) by lra. cbn [INR]. lra.
Qed.
Example C77_ex_band : hertz (snd (band_edges 1000 16000)) 16000 < 250.
Proof.
  assert (P : Rpower 2 (1 / 6) < Rpower 2 (1 / 2)) by (apply Rpower_lt; lra). assert (Q0 : Rpower 2 (1 / 2) = sqrt 2) by (rewrite <- Rpower_sqrt by lra; f_equal; lra).
  assert (U : sqrt 2 < 3 / 2). { rewrite <- (sqrt_square (3 / 2)) by lra. apply sqrt_lt_1; lra. }
  pose proof PI_RGT_0. assert (V : 3 < PI) by (pose proof PI2_3_2; unfold PI2 in *; lra).
  unfold hertz, band_edges. cbn [snd]. apply Rmult_lt_reg_r with (2 * PI); [lra|]. unfold Rdiv. rewrite Rmult_assoc, Rinv_l by lra. set (w := Rpower 2 (1 * / 6)) in *. change (Rpower 2 (1 / 6)) with w in P. lra.
Qed.
Example C77_ex_dynamic : exists x, dynamic_snr [1; 2] [1; 2] [true; false] = Ok (Fin x, Fin x, Fin (x - x)).
Proof.
  unfold dynamic_snr. cbv zeta. rewrite get_snr_none, snr_value by (unfold energy, rsum; cbn; lra || reflexivity). cbn [bind xsub]. eexists. reflexivity.
Qed.

Print Assumptions C77_snr_value.
Print Assumptions C77_gains.
Print Assumptions C77_differences.
Print Assumptions C77_improvement.
Print Assumptions C77_no_processing.
Print Assumptions C77_window_only.
Print Assumptions C77_fwsnrseg_range.
Print Assumptions C77_other_differences_refuted.
Print Assumptions C77_gamma_refuted.
Print Assumptions C77_bands_refuted.
Print Assumptions C77_dynamic_snr_refuted.
Print Assumptions C77_pesq_ssbc_refuted.
Print Assumptions C77_without_vad_refuted.
Print Assumptions C77_values.
Print Assumptions C77_best.
