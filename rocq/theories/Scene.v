(** Model of the assembly of an acoustic scenario:
    /repo/siggen/utils.py 18-83 ([build_scenario]), 598-612 (impulse responses per node in
    [build_room]), 140-226 (levels of the noise sources in [get_raw_source_signals]),
    834-893 ([get_vad]: wet signals and activity per source), /repo/siggen/classes.py
    418-423 (combined activity of a node) and 669-702 (activity per frame).

    Simplifications: samples are reals; [sig.fftconvolve(x, ir)[:len(x)]] and
    [sig.lfilter(ir, 1, x)] are the same function [Level.lfilter]; the cache of VAD files
    (896-940) is not used; printed messages are represented by the SNR they report. *)
From Verif Require Import Base SigGen Level.
From Coq Require Import QArith Reals.
Local Open Scope R_scope.

Notation ir := (list R).
(** impulse responses: per node, per sensor of the node, per source *)
Definition irs_t := list (list (list ir)).

(** 598-612: [rir] holds, per sensor of the network, the responses of all sources *)
Definition split_desired (s2n : list nat) (nodes n_d : nat) (rir : list (list ir)) : irs_t :=
  map (fun k => map (firstn n_d) (sensors_of k s2n rir)) (seq 0 nodes).
Definition split_noise (s2n : list nat) (nodes n_n : nat) (rir : list (list ir)) : irs_t :=
  map (fun k => map (py_from (- Z.of_nat n_n)) (sensors_of k s2n rir)) (seq 0 nodes).

(** 161: [y / np.std(y)] *)
Definition mean (x : list R) : R := rsum x / INR (length x).
Definition std (x : list R) : R := sqrt (rsum (map (fun v => (v - mean x) * (v - mean x)) x) / INR (length x)).
Definition normalise (x : list R) : list R := map (fun v => v / std x) x.

Inductive snr_basis := DryBasis | MicBasis (mic : nat) | OtherBasis.
(** 61-67, 203-209: the responses of one sensor, designated by its network-wide index *)
Definition at_mic {A} (ms : list nat) (mic : nat) (l : list (list A)) : res A :=
  do km <- ref_mic ms mic;
  do node <- get l (fst km);
  py_get node (snd km).
(** 185-224: level of noise source [i]; [ds]: the desired signals *)
Definition noise_level (b : snr_basis) (snr : R) (ms : list nat) (irs_d irs_n : irs_t) (ds : list (list R)) (i : nat) (n : list R) : res (list R) :=
  match b with
  | DryBasis => Ok (scale (pow10 (- snr / 20)) n)
  | MicBasis mic =>
      do d <- at_mic ms mic irs_d;
      do s <- at_mic ms mic irs_n;
      do r <- get s i;
      Ok (noise_for_mic_snr d ds r n snr)
  | OtherBasis => Ok n
  end.
Definition noise_levels (b : snr_basis) (snr : R) (ms : list nat) (irs_d irs_n : irs_t) (ds ns : list (list R)) : res (list (list R)) :=
  mapM (fun q => noise_level b snr ms irs_d irs_n ds (fst q) (snd q)) (combine (seq 0 (length ns)) ns).

(** 868-872: the sources at one sensor, one signal per source ([xdry[:, ii]] must exist) *)
Definition wet_sources (xs : list (list R)) (srcs : list ir) : res (list (list R)) :=
  mapM (fun q => do x <- get xs (fst q); Ok (lfilter (snd q) x)) (combine (seq 0 (length srcs)) srcs).
(** 862-891: wet signals, summed over the sources; [len] samples *)
Definition wet_sensor (len : nat) (xs : list (list R)) (srcs : list ir) : res (list R) :=
  do w <- wet_sources xs srcs;
  Ok (fold_left vadd w (repeat 0 len)).
Definition wet_signals (len : nat) (xs : list (list R)) (irs : irs_t) : res (list (list (list R))) :=
  mapM (mapM (wet_sensor len xs)) irs.
(** 874-888: activity per node and source, from the node's reference sensor *)
Definition source_vads (xs : list (list R)) (ref : nat) (efact : R) (nw : nat) (irs : irs_t) : res (list (list (list bool))) :=
  mapM (fun node => do srcs <- get node ref; do w <- wet_sources xs srcs; mapM (fun x => get_vad x efact nw) w) irs.

(** 18-83: wet speech, wet noise ([None] without noise sources), activity, and the SNR
    that is reported for the reference microphone *)
Record scenario := mkScenario {
  sc_speech : list (list (list R)); sc_noise : option (list (list (list R)));
  sc_vad : list (list (list bool)); sc_snr : option R }.
Definition build_scenario (b : snr_basis) (snr : R) (ms : list nat) (ref : nat) (efact : R) (nw len : nat) (irs_d irs_n : irs_t) (ds ns : list (list R)) : res scenario :=
  do ns' <- noise_levels b snr ms irs_d irs_n ds ns;
  do speech <- wet_signals len ds irs_d;
  do vad <- source_vads ds ref efact nw irs_d;
  if Nat.eqb (length ns) 0 then Ok (mkScenario speech None vad None) else
  do noise <- wet_signals len ns' irs_n;
  match b with
  | MicBasis mic =>
      do s <- at_mic ms mic speech;
      do n <- at_mic ms mic noise;
      Ok (mkScenario speech (Some noise) vad (Some (10 * log10 (energy s / energy n))))
  | _ => Ok (mkScenario speech (Some noise) vad None)
  end.

(** classes.py 420-423: sample [i] counts as active if some source is active *)
Definition combined_vad (len : nat) (vads : list (list bool)) : list bool :=
  map (fun i => existsb (fun v => nth i v false) vads) (seq 0 len).
(** classes.py 683-702 for one node, whose [vad] has one column per desired source: the
    comparison of line 698 is an array with one entry per source, which [float] converts
    only if there is exactly one *)
Definition node_vad_per_frame (flen shift : nat) (prop : Q) (len : nat) (vads : list (list bool)) : res (list bool) :=
  match vads with
  | [v] => vad_per_frame flen shift prop v
  | _ =>
      if Nat.eqb len 0 then Err ValueError
      else if Nat.eqb shift 0 then Err ZeroDivisionError
      else if Nat.eqb (len / shift) 0 then Ok []
      else if Nat.ltb len flen then Ok [false]
      else Err TypeError
  end.
