(** Model of the speech enhancement metrics: danse_toolbox/d_eval.py 70-373 [get_metrics],
    484-537 [get_sisnr], 573-624 [get_snr], 666-768 [get_fwsnrseg] (parameters and last
    steps), 434-437 (SNR in [get_dynamic_metric]).

    Simplifications: single-channel signals (as in d_post.py 810-846); reals instead of
    floats, with infinities and nan; the band-pass filters of scipy, the spectral part of
    fwSNRseg, STOI (see C55) and PESQ are arbitrary functions; all values of one metric are
    computed before those of the next one (which only matters for which error is raised). *)
From Verif Require Import Base.
From Coq Require Import Reals.
Local Open Scope R_scope.

(** floats *)
Inductive xreal := Fin (r : R) | PInf | MInf | NaN.
Definition xsub (a b : xreal) : xreal :=
  match a, b with
  | Fin x, Fin y => Fin (x - y)
  | NaN, _ | _, NaN | PInf, PInf | MInf, MInf => NaN
  | PInf, _ | _, MInf => PInf
  | MInf, _ | _, PInf => MInf
  end.
Definition xadd (a b : xreal) : xreal :=
  match a, b with
  | Fin x, Fin y => Fin (x + y)
  | NaN, _ | _, NaN | PInf, MInf | MInf, PInf => NaN
  | PInf, _ | _, PInf => PInf
  | MInf, _ | _, MInf => MInf
  end.
(** product with a positive number *)
Definition xscale (w : R) (a : xreal) : xreal := match a with Fin x => Fin (w * x) | _ => a end.

Definition rsum (l : list R) : R := fold_right Rplus 0 l.
(** [np.mean], nan for nothing *)
Definition mean (l : list R) : xreal := match l with [] => NaN | _ => Fin (rsum l / INR (length l)) end.
Definition squares (l : list R) : list R := map (fun x => x * x) l.
Definition log10 (x : R) : R := ln x / ln 10.
(** [10 * np.log10(a / b)] of means of squares *)
Definition db (a b : xreal) : xreal :=
  match a, b with
  | Fin x, Fin y =>
    if Req_EM_T y 0 then if Req_EM_T x 0 then NaN else PInf
    else if Req_EM_T x 0 then MInf else Fin (10 * log10 (x / y))
  | _, _ => NaN
  end.
(** [x[mask]], IndexError if the lengths differ *)
Definition masked (mask : list bool) (x : list R) : res (list R) :=
  if Nat.eqb (length mask) (length x) then Ok (map fst (filter snd (combine x mask))) else Err IndexError.
(** 573-624 *)
Definition get_snr (s n : list R) (vad : option (list bool)) (bypass : bool) : res xreal :=
  let whole := repeat true (length s) in
  let mask := match vad with None => whole | Some m => if bypass then whole else m end in
  do s' <- masked mask s;
  do n' <- masked mask n;
  Ok (db (mean (squares s')) (mean (squares n'))).

(** 507-513 *)
Definition si_weights : list R :=
  map (fun w => w / 10000) [83; 95; 150; 289; 440; 578; 653; 711; 818; 844; 882; 898; 868; 844; 771; 527; 364; 185].
Definition si_centres : list R :=
  [160; 200; 250; 315; 400; 500; 630; 800; 1000; 1250; 1600; 2000; 2500; 3150; 4000; 5000; 6300; 8000].
(** 518-521: edges of a band, for a design with [fs = 2 pi], i.e. in radians per sample *)
Definition band_edges (fc fs : R) : R * R := (1 / fs * (fc * Rpower 2 (- (1 / 6))), 1 / fs * (fc * Rpower 2 (1 / 6))).
(** 515-537; scipy refuses edges of [pi] and more *)
Definition get_sisnr (bp : R -> R -> list R -> list R) (s n : list R) (vad : option (list bool)) (fs : R) (bypass : bool) : res xreal :=
  fold_left (fun acc wf =>
    do a <- acc;
    let '(lo, hi) := band_edges (snd wf) fs in
    if Rlt_dec hi PI then
      do x <- get_snr (bp lo hi s) (bp lo hi n) vad bypass;
      Ok (xadd a (xscale (fst wf) x))
    else Err ValueError)
    (combine si_weights si_centres) (Ok (Fin 0)).

(** 666 and 764-768: [raw] is the frequency-weighted SNR per frame, given the frame length,
    the overlap and the exponent *)
Definition clip35 (x : R) : R := Rmin 35 (Rmax 0 x).
Definition get_fwsnrseg (raw : list R -> list R -> R -> R -> R -> R -> list R) (clean x : list R) (fs frameLen overlap gamma : R) : res (list R) :=
  if Nat.eqb (length clean) (length x) then Ok (map clip35 (raw clean x fs frameLen overlap gamma)) else Err ValueError.

(** Signals of one kind of processing: estimate, filtered speech, filtered noise *)
Record proc := mkP { p_enh : list R; p_s : list R; p_n : list R }.
(** Best performance data: filtered speech and noise, clean speech, estimate, frequency *)
Record best := mkB { b_s : list R; b_n : list R; b_clean : list R; b_d : list R; b_fs : R }.
Record signals := mkG { g_noisy : proc; (* before: microphone, clean speech, noise *)
                        g_danse : proc; g_centr : option proc; g_local : option proc; g_ssbc : option proc; g_best : option best }.
Record metric := mkM { m_best : option xreal; m_before : xreal; m_after : xreal; m_diff : xreal;
                       m_afterLocal : xreal; m_diffLocal : xreal; m_afterCentr : xreal; m_diffCentr : xreal; m_afterSSBC : xreal; m_diffSSBC : xreal }.
(** metricsToPlot *)
Record asked := mkA { k_snr : bool; k_sisnr : bool; k_fw : bool; k_stoi : bool; k_pesq : bool }.
Record metrics := mkMs { o_snr : option metric; o_sisnr : option metric; o_fw : option metric; o_stoi : option metric; o_pesq : option metric }.
(** Functions of other libraries *)
Record library := mkL { l_bp : R -> R -> list R -> list R; l_raw : list R -> list R -> R -> R -> R -> R -> list R;
                        l_stoi : list R -> list R -> R -> R; l_pesq : R -> list R -> list R -> R }.

Definition trim (a b : Z) (p : proc) : proc := mkP (py_slice a b (p_enh p)) (py_slice a b (p_s p)) (py_slice a b (p_n p)).
Definition opt {A B} (f : A -> res B) (d : B) (o : option A) : res B := match o with None => Ok d | Some a => f a end.
(** One metric: [ev] evaluates processed signals, [ev_ssbc] those of single-sensor broadcasts,
    [ev_best] the best performance; only the first difference is computed. *)
Definition one_metric (ev ev_ssbc : proc -> res xreal) (ev_best : best -> res xreal) (g : signals) : res metric :=
  do b <- ev (g_noisy g);
  do a <- ev (g_danse g);
  do m <- opt (fun x => do v <- ev_best x; Ok (Some v)) None (g_best g);
  do c <- opt ev (Fin 0) (g_centr g);
  do l <- opt ev (Fin 0) (g_local g);
  do s <- opt ev_ssbc (Fin 0) (g_ssbc g);
  Ok (mkM m b a (xsub a b) l (Fin 0) c (Fin 0) s (Fin 0)).
Definition if_asked (k : bool) (m : res metric) : res (option metric) := if k then (do x <- m; Ok (Some x)) else Ok None.

(** 166-373 without the dynamic metrics; [endIdx] given *)
Definition get_metrics (L : library) (g0 : signals) (fs : R) (vad : option (list bool)) (a b : Z) (gamma fLen : R) (k : asked) : res metrics :=
  match vad with
  | None => Err TypeError (* 196: [vad[startIdx:endIdx]] *)
  | Some v =>
    let g := mkG (trim a b (g_noisy g0)) (trim a b (g_danse g0)) (option_map (trim a b) (g_centr g0)) (option_map (trim a b) (g_local g0))
                 (option_map (trim a b) (g_ssbc g0)) (g_best g0) in
    let vad := Some (py_slice a b v) in
    let clean := p_s (g_noisy g) in
    let shift := Int_part (/ 5 * fs) in
    let cut (x : list R) := py_slice (a + shift) (b - shift) x in
    let bypass := true in (* 206 *)
    let fw c x f := do l <- get_fwsnrseg (l_raw L) c x f fLen gamma (/ 5); Ok (mean l) in
    let known := if Req_EM_T fs 8000 then true else if Req_EM_T fs 16000 then true else false in
    do snr <- if_asked (k_snr k) (one_metric (fun p => get_snr (p_s p) (p_n p) vad bypass) (fun p => get_snr (p_s p) (p_n p) vad bypass)
                (fun x => get_snr (cut (b_s x)) (cut (b_n x)) vad bypass) g);
    do sisnr <- if_asked (k_sisnr k) (one_metric (fun p => get_sisnr (l_bp L) (p_s p) (p_n p) vad fs bypass) (fun p => get_sisnr (l_bp L) (p_s p) (p_n p) vad fs bypass)
                (fun x => get_sisnr (l_bp L) (cut (b_s x)) (cut (b_n x)) vad (b_fs x) bypass) g);
    do fwm <- if_asked (k_fw k) (one_metric (fun p => fw clean (p_enh p) fs) (fun p => fw clean (p_enh p) fs) (fun x => fw (cut (b_clean x)) (cut (b_d x)) (b_fs x)) g);
    do stoi <- if_asked (k_stoi k) (one_metric (fun p => Ok (Fin (l_stoi L clean (p_enh p) fs))) (fun p => Ok (Fin (l_stoi L clean (p_enh p) fs)))
                (fun x => Ok (Fin (l_stoi L (cut (b_clean x)) (cut (b_d x)) (b_fs x)))) g);
    (** 265-293 *)
    do pesq <- if_asked (k_pesq k)
        (if known then one_metric (fun p => Ok (Fin (l_pesq L fs clean (p_enh p)))) (fun p => Ok (Fin (l_pesq L fs (p_s p) (p_enh p))))
                         (fun x => Ok (Fin (l_pesq L (b_fs x) clean (cut (b_d x))))) g
         else Ok (mkM None (Fin 0) (Fin 0) (Fin 0) (Fin 0) (Fin 0) (Fin 0) (Fin 0) (Fin 0) (Fin 0)));
    Ok (mkMs snr sisnr fwm stoi pesq)
  end.

(** 434-437 and 469: the SNR of one chunk in [get_dynamic_metric], before, after, difference;
    the VAD is given in place of the noise (as numbers) *)
Definition dynamic_snr (noisy enhan : list R) (vad : list bool) : res (xreal * xreal * xreal) :=
  let v := map (fun b : bool => if b then 1 else 0) vad in
  do b <- get_snr noisy v None false;
  do a <- get_snr enhan v None false;
  Ok (b, a, xsub a b).
