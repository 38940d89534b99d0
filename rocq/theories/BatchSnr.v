(** Model of the speech-only and noise-only batch runs made for SNR computations:
    danse_toolbox/d_core.py 550-600 ([generate_signals_for_snr_computation]) with
    [danse_batch] / [tidanse_batch] (d_core.py 251-345, 355-455) as [danse_function], and
    d_classes.py 888-897. *)
From Verif Require Import Base Cx Scm Batch Ext BatchSig BatchSigSpec.
From Coq Require Import Reals.
Open Scope cx_scope.

(** [PreComputedFilters] (d_base.py 22-40): active for which signals, with the filters of
    the run whose output is to be analysed; [None]: not active. *)
Inductive purpose := SpeechOnly | NoiseOnly.
Record pregiven := mkPre { pg_purpose : purpose; pg_filters : list (bnode coefs coefs) }.

Section Run.
  Variables (nn : nat) (ms : nat -> nat) (vads : nat -> list bool) (nbrs : nat -> list nat)
    (ti : bool) (ref : nat) (inv : nat -> mat -> mat) (mode : bmode) (sequential : bool)
    (iters : nat).
  (** STFT frames of the microphone signals ([node.data]), of their speech and of their
      noise parts ([node.cleanspeech], [node.cleannoise]) *)
  Variables (data speech noise : nat -> list stft).

  (** d_classes.py 890-897: [yin] *)
  Definition yin (g : option pregiven) : nat -> list stft :=
    match g with
    | None => data
    | Some g => match pg_purpose g with NoiseOnly => noise | SpeechOnly => speech end
    end.
  (** d_core.py 282-328, 397-438: the batch functions call [perform_update], never
      [update_using_pregiven_filters]: the given filters select the signals only. *)
  Definition danse_batch (g : option pregiven) (bs : list (bnode coefs coefs)) : res (list (bnode coefs coefs)) :=
    if sequential then danse_seq nn ms (yin g) vads nbrs ti ref inv mode iters 0 bs
    else danse_sim nn ms (yin g) vads nbrs ti ref inv mode iters bs.
  (** d_batch.py 141-148: STFT of the estimate of node [k] after the last iteration, from
      the signals received at its beginning *)
  Definition dhat (ys : nat -> list stft) (es : list coefs) (w : coefs) (k t f : nat) : cx :=
    csum (dim ms nbrs ti k) (fun c => conj (w f c) * y_tilde nn ms ys nbrs ti es k t f c).
  Definition output (g : option pregiven) (bs : list (bnode coefs coefs)) : res (nat -> nat -> nat -> cx) :=
    do r <- danse_batch g bs;
    Ok (fun k t f => dhat (yin g) (ext_filters nn r (iters - 1)) (int_filter r iters k) k t f).

  (** d_core.py 562-585: the run itself, then the noise-only and speech-only runs with its
      filters; from the same initial filters *)
  Definition signals_for_snr (bs : list (bnode coefs coefs)) : res ((nat -> nat -> nat -> cx) * (nat -> nat -> nat -> cx) * (nat -> nat -> nat -> cx)) :=
    do r <- danse_batch None bs;
    do d <- output None bs;
    do n <- output (Some (mkPre NoiseOnly r)) bs;
    do s <- output (Some (mkPre SpeechOnly r)) bs;
    Ok (d, s, n).
End Run.
