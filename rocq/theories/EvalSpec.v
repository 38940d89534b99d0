(** Specification vocabulary for metrics (C77). *)
From Verif Require Import Base Eval.
From Coq Require Import Reals.
Local Open Scope R_scope.

(** Energy of a signal, signal times a gain, level of a gain. *)
Definition energy (x : list R) : R := rsum (squares x).
Definition gain (g : R) (x : list R) : list R := map (Rmult g) x.
Definition level (g : R) : R := 20 * log10 (Rabs g).
(** The metrics computed *)
Definition computed (ms : metrics) : list (option metric) := [o_snr ms; o_sisnr ms; o_fw ms; o_stoi ms; o_pesq ms].
(** Signals that are the same from sample [a] to sample [b]. *)
Definition same_window (a b : Z) (p q : proc) : Prop := trim a b p = trim a b q.
Definition same_window_opt (a b : Z) (p q : option proc) : Prop := option_map (trim a b) p = option_map (trim a b) q.
(** Frequency in Hz of a number of radians per sample *)
Definition hertz (w fs : R) : R := w * fs / (2 * PI).
(** A metric holds the values of [val] (a function of an estimate and its speech and noise
    parts) for the microphone signals and for each estimate, all from sample [a] to sample
    [b]; [ssbc]: for the single-sensor estimate as well. *)
Definition reports (a b : Z) (g : signals) (val : list R -> list R -> list R -> res xreal) (ssbc : bool) (m : metric) : Prop :=
  let v p := val (py_slice a b (p_enh p)) (py_slice a b (p_s p)) (py_slice a b (p_n p)) in
  v (g_noisy g) = Ok (m_before m) /\ v (g_danse g) = Ok (m_after m) /\
  (forall p, g_centr g = Some p -> v p = Ok (m_afterCentr m)) /\ (forall p, g_local g = Some p -> v p = Ok (m_afterLocal m)) /\
  (ssbc = true -> forall p, g_ssbc g = Some p -> v p = Ok (m_afterSSBC m)).
