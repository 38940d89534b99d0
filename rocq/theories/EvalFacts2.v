From Verif Require Import Base BaseFacts Eval EvalSpec EvalFacts.
From Coq Require Import Reals Lra.
Local Open Scope R_scope.

Definition trimmed (a b : Z) (g : signals) : signals :=
  mkG (trim a b (g_noisy g)) (trim a b (g_danse g)) (option_map (trim a b) (g_centr g)) (option_map (trim a b) (g_local g)) (option_map (trim a b) (g_ssbc g)) (g_best g).
Definition fw_ev (L : library) (fLen gamma : R) (c x : list R) (f : R) : res xreal :=
  do l <- get_fwsnrseg (l_raw L) c x f fLen gamma (/ 5); Ok (mean l).
Definition known_fs (fs : R) : bool := if Req_EM_T fs 8000 then true else if Req_EM_T fs 16000 then true else false.
Definition all_metrics (L : library) (g : signals) (fs : R) (v : list bool) (a b : Z) (gamma fLen : R) (k : asked) (ms : metrics) : Prop :=
  let vad := Some (py_slice a b v) in
  let clean := p_s (g_noisy (trimmed a b g)) in
  let cut (x : list R) := py_slice (a + Int_part (/ 5 * fs)) (b - Int_part (/ 5 * fs)) x in
  if_asked (k_snr k) (one_metric (fun p => get_snr (p_s p) (p_n p) vad true) (fun p => get_snr (p_s p) (p_n p) vad true)
                (fun x => get_snr (cut (b_s x)) (cut (b_n x)) vad true) (trimmed a b g)) = Ok (o_snr ms) /\
  if_asked (k_sisnr k) (one_metric (fun p => get_sisnr (l_bp L) (p_s p) (p_n p) vad fs true) (fun p => get_sisnr (l_bp L) (p_s p) (p_n p) vad fs true)
                (fun x => get_sisnr (l_bp L) (cut (b_s x)) (cut (b_n x)) vad (b_fs x) true) (trimmed a b g)) = Ok (o_sisnr ms) /\
  if_asked (k_fw k) (one_metric (fun p => fw_ev L fLen gamma clean (p_enh p) fs) (fun p => fw_ev L fLen gamma clean (p_enh p) fs)
                (fun x => fw_ev L fLen gamma (cut (b_clean x)) (cut (b_d x)) (b_fs x)) (trimmed a b g)) = Ok (o_fw ms) /\
  if_asked (k_stoi k) (one_metric (fun p => Ok (Fin (l_stoi L clean (p_enh p) fs))) (fun p => Ok (Fin (l_stoi L clean (p_enh p) fs)))
                (fun x => Ok (Fin (l_stoi L (cut (b_clean x)) (cut (b_d x)) (b_fs x)))) (trimmed a b g)) = Ok (o_stoi ms) /\
  if_asked (k_pesq k)
        (if known_fs fs then one_metric (fun p => Ok (Fin (l_pesq L fs clean (p_enh p)))) (fun p => Ok (Fin (l_pesq L fs (p_s p) (p_enh p))))
                         (fun x => Ok (Fin (l_pesq L (b_fs x) clean (cut (b_d x))))) (trimmed a b g)
         else Ok (mkM None (Fin 0) (Fin 0) (Fin 0) (Fin 0) (Fin 0) (Fin 0) (Fin 0) (Fin 0) (Fin 0))) = Ok (o_pesq ms).
Lemma get_metrics_ok L g fs vad a b gamma fLen k ms : get_metrics L g fs vad a b gamma fLen k = Ok ms ->
  exists v, vad = Some v /\ all_metrics L g fs v a b gamma fLen k ms.
Proof.
  destruct vad as [v|]; [|discriminate]. intros H. exists v. split; [reflexivity|]. unfold get_metrics in H. cbv zeta in H.
  apply bind_ok in H. destruct H as (x1 & H1 & H). apply bind_ok in H. destruct H as (x2 & H2 & H). apply bind_ok in H. destruct H as (x3 & H3 & H).
  apply bind_ok in H. destruct H as (x4 & H4 & H). apply bind_ok in H. destruct H as (x5 & H5 & H). injection H as <-.
  split; [exact H1|]. split; [exact H2|]. split; [exact H3|]. split; [exact H4|exact H5].
Qed.
Lemma metrics_each L g fs v a b gamma fLen k ms : all_metrics L g fs v a b gamma fLen k ms -> forall m, In (Some m) (computed ms) ->
  m_diff m = xsub (m_after m) (m_before m) /\ (g_danse g = g_noisy g -> m_after m = m_before m) /\ m_diffLocal m = Fin 0 /\ m_diffCentr m = Fin 0 /\ m_diffSSBC m = Fin 0.
Proof.
  intros (H1 & H2 & H3 & H4 & H5) m I.
  assert (K : forall ev ev' evb, one_metric ev ev' evb (trimmed a b g) = Ok m ->
    m_diff m = xsub (m_after m) (m_before m) /\ (g_danse g = g_noisy g -> m_after m = m_before m) /\ m_diffLocal m = Fin 0 /\ m_diffCentr m = Fin 0 /\ m_diffSSBC m = Fin 0).
  { intros ev ev' evb E. destruct (one_metric_ok _ _ _ _ _ E) as (Eb & Ea & Ed & _ & _ & _ & Z1 & Z2 & Z3). split; [exact Ed|]. split; [|auto].
    intros Eq. unfold trimmed in Eb, Ea. cbn [g_noisy g_danse] in Eb, Ea. rewrite Eq in Ea. congruence. }
  destruct I as [I|[I|[I|[I|[I|[]]]]]].
  - exact (K _ _ _ (proj2 (if_asked_ok _ _ _ H1 m I))).
  - exact (K _ _ _ (proj2 (if_asked_ok _ _ _ H2 m I))).
  - exact (K _ _ _ (proj2 (if_asked_ok _ _ _ H3 m I))).
  - exact (K _ _ _ (proj2 (if_asked_ok _ _ _ H4 m I))).
  - pose proof (proj2 (if_asked_ok _ _ _ H5 m I)) as E. destruct (known_fs fs); [exact (K _ _ _ E)|]. injection E as <-. cbn. split; [f_equal; ring|]. auto.
Qed.
Lemma snr_vad s n v v' : get_snr s n (Some v) true = get_snr s n (Some v') true.
Proof. reflexivity. Qed.
Lemma metrics_window L g g' fs v v' a b gamma fLen k :
  same_window a b (g_noisy g) (g_noisy g') -> same_window a b (g_danse g) (g_danse g') -> same_window_opt a b (g_centr g) (g_centr g') ->
  same_window_opt a b (g_local g) (g_local g') -> same_window_opt a b (g_ssbc g) (g_ssbc g') -> g_best g = g_best g' ->
  get_metrics L g fs (Some v) a b gamma fLen k = get_metrics L g' fs (Some v') a b gamma fLen k.
Proof.
  unfold same_window, same_window_opt. intros H1 H2 H3 H4 H5 H6. unfold get_metrics. cbv zeta. rewrite H1, H2, H3, H4, H5, H6. reflexivity.
Qed.
Lemma fw_ev_range L fLen gamma c x f r : fw_ev L fLen gamma c x f = Ok r -> r = NaN \/ exists q, r = Fin q /\ 0 <= q <= 35.
Proof. unfold fw_ev. intros H. apply bind_ok in H. destruct H as (l & E & H). injection H as <-. apply mean_range. now apply fw_range in E. Qed.
Lemma fw_values L c fs gamma fLen g m : let ev p := fw_ev L fLen gamma c (p_enh p) fs in
  ev (g_noisy g) = Ok (m_before m) -> ev (g_danse g) = Ok (m_after m) -> opt ev (Fin 0) (g_centr g) = Ok (m_afterCentr m) ->
  opt ev (Fin 0) (g_local g) = Ok (m_afterLocal m) -> opt ev (Fin 0) (g_ssbc g) = Ok (m_afterSSBC m) ->
  forall x, In x [m_before m; m_after m; m_afterCentr m; m_afterLocal m; m_afterSSBC m] -> x = NaN \/ exists r, x = Fin r /\ 0 <= r <= 35.
Proof.
  intros ev H1 H2 H3 H4 H5 x I.
  assert (K : forall o y, opt ev (Fin 0) o = Ok y -> y = NaN \/ exists r, y = Fin r /\ 0 <= r <= 35).
  { intros o y H. destruct o as [p|]; cbn [opt] in H; [exact (fw_ev_range _ _ _ _ _ _ _ H)|]. injection H as <-. right. exists 0. split; [reflexivity|lra]. }
  destruct I as [<-|[<-|[<-|[<-|[<-|[]]]]]]; [exact (fw_ev_range _ _ _ _ _ _ _ H1)|exact (fw_ev_range _ _ _ _ _ _ _ H2)|exact (K _ _ H3)|exact (K _ _ H4)|exact (K _ _ H5)].
Qed.
Lemma one_metric_ext ev ev2 evs evs2 evb evb2 g : (forall p, ev p = ev2 p) -> (forall p, evs p = evs2 p) -> (forall x, evb x = evb2 x) -> one_metric ev evs evb g = one_metric ev2 evs2 evb2 g.
Proof.
  intros H1 H2 H3. unfold one_metric. rewrite !H1. unfold opt. destruct (g_best g), (g_centr g), (g_local g), (g_ssbc g); rewrite ?H1, ?H2, ?H3; reflexivity.
Qed.
Lemma gamma_unused L g fs vad a b gamma gamma' fLen k : (forall c x f l o o' e, l_raw L c x f l o e = l_raw L c x f l o' e) ->
  get_metrics L g fs vad a b gamma fLen k = get_metrics L g fs vad a b gamma' fLen k.
Proof.
  intros H. destruct vad as [v|]; [|reflexivity]. unfold get_metrics. cbv zeta.
  assert (E : forall c x f, get_fwsnrseg (l_raw L) c x f fLen gamma (/ 5) = get_fwsnrseg (l_raw L) c x f fLen gamma' (/ 5)).
  { intros c x f. unfold get_fwsnrseg. now rewrite (H c x f fLen gamma gamma'). }
  match goal with |- context [if_asked (k_fw k) ?A] => set (X := A) end. match goal with |- _ = ?R => match R with context [if_asked (k_fw k) ?A] => set (Y := A) end end.
  assert (XY : X = Y). { unfold X, Y. apply one_metric_ext; intros; now rewrite E. } rewrite XY. reflexivity.
Qed.
Lemma bands fc fs : 0 < fc -> 0 < fs ->
  let '(lo, hi) := band_edges fc fs in hertz lo fs < hertz hi fs < fc /\ sqrt (hertz lo fs * hertz hi fs) = fc / (2 * PI).
Proof.
  intros Hc Hs. unfold band_edges, hertz. pose proof PI_RGT_0 as P. set (u := Rpower 2 (- (1 / 6))). set (w := Rpower 2 (1 / 6)).
  assert (Pu : 0 < u) by apply exp_pos. assert (Pw : 0 < w) by apply exp_pos.
  assert (UW : u * w = 1) by (unfold u, w; rewrite <- Rpower_plus; replace (- (1 / 6) + 1 / 6) with 0 by ring; apply Rpower_O; lra).
  assert (LW : u < w) by (apply Rpower_lt; lra). assert (W2 : w < 2) by (unfold w; rewrite <- (Rpower_1 2) at 2 by lra; apply Rpower_lt; lra).
  replace (1 / fs * (fc * u) * fs / (2 * PI)) with (fc / (2 * PI) * u) by (field; lra). replace (1 / fs * (fc * w) * fs / (2 * PI)) with (fc / (2 * PI) * w) by (field; lra).
  assert (Q : 0 < fc / (2 * PI)) by (apply Rdiv_lt_0_compat; lra). split; [split|].
  - now apply Rmult_lt_compat_l.
  - assert (V : 2 < PI) by (pose proof PI2_1; unfold PI2 in *; pose proof PI2_3_2; unfold PI2 in *; lra || (pose proof (PI2_1); lra)).
    apply Rmult_lt_reg_r with (2 * PI); [lra|]. replace (fc / (2 * PI) * w * (2 * PI)) with (fc * w) by (field; lra). nra.
  - replace (fc / (2 * PI) * u * (fc / (2 * PI) * w)) with (fc / (2 * PI) * (fc / (2 * PI)) * (u * w)) by ring. rewrite UW, Rmult_1_r. apply sqrt_square. lra.
Qed.
