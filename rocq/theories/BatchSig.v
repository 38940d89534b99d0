(** Model of batch DANSE and batch TI-DANSE on given signals:
    danse_toolbox/d_base.py 2473-2542, d_batch.py 29-50 and 127-139, d_core.py
    287-328 and 397-438 (the runs themselves are those of Batch.v). *)
From Verif Require Import Base Cx Scm Batch Ext.
From Coq Require Import Reals.
Set Implicit Arguments.
Open Scope R_scope.
Open Scope cx_scope.

(** Frames of STFT coefficients: frequency, channel. *)
Notation stft := (nat -> nat -> cx).
Definition frame_at (ys : list stft) (t : nat) : stft := nth t ys (fun _ _ => czero).

(** Which signals are sent: [onlyBroadcastRefSensorSigs], [noFusionAtSingleSensorNodes],
    or neither (d_classes.py 1652, 1662). *)
Inductive bmode := RefOnly | NoSingleFusion | Fusion.

Section Sig.
  (** number of nodes, sensors per node ([nSensorPerNode]), frames of all the
      nodes ([yinSTFT]: one list of frames per node), VAD of the frames at each
      node ([oVADframes]), neighbours, TI-DANSE flag, reference sensor *)
  Variables (nn : nat) (ms : nat -> nat) (ys : nat -> list stft) (vads : nat -> list bool)
    (nbrs : nat -> list nat) (ti : bool) (ref : nat).

  (** 2507-2511, 2528-2532: [einsum('ij,ikj->ik', p.conj(), yinSTFT[q])] *)
  Definition fused (p : coefs) (q t : nat) : nat -> cx := fun f => csum (ms q) (fun m => conj (p f m) * frame_at (ys q) t f m).
  (** 2502-2504: [fusionFilter[:, :M] / fusionFilter[:, -1:]] *)
  Definition ti_fusion (e : coefs) (q : nat) : coefs := fun f m => e f m * cinv (e f (ms q)).

  (** 2489-2516 / 2517-2540 [get_y_tilde_batch]: the [t]-th frame of node [k];
      [es] are the external filters in use.  The nodes have the same number of
      frames (otherwise numpy raises). *)
  Definition y_tilde (es : list coefs) (k t : nat) : stft := fun f c =>
    if Nat.ltb c (ms k) then frame_at (ys k) t f c
    else if ti then csum nn (fun q => if Nat.eqb q k then czero else fused (ti_fusion (nth q es (fun _ _ => czero)) q) q t f)
    else match nth_error (nbrs k) (c - ms k) with
         | Some q => fused (nth q es (fun _ _ => czero)) q t f
         | None => czero
         end.
  Definition dim (k : nat) : nat := ms k + (if ti then 1%nat else length (nbrs k)).

  (** d_batch.py 127-139; when a kind of frame is missing, or the VAD is too short,
      numpy gives NaN or raises: not modelled (zero matrices). *)
  Definition or_zero (r : res (option tens * option tens)) : tens * tens :=
    match r with Ok (Some ryy, Some rnn) => (ryy, rnn) | _ => (fun _ _ _ => czero, fun _ _ _ => czero) end.
  Definition tilde_covmats (es : list coefs) (k : nat) : tens * tens :=
    or_zero (covmats_batch (map (y_tilde es k) (seq 0 (length (ys k)))) (vads k)).

  (** d_classes.py 2303-2308 with [update_w], at every frequency; [inv n] is
      [np.linalg.inv] for [n x n] matrices. *)
  Variable inv : nat -> mat -> mat.
  Definition new_w (k : nat) (m : tens * tens) : coefs :=
    fun f => update_w (dim k) ref (inv (dim k) (fst m f)) (fst m f) (snd m f).

  (** d_classes.py 1652-1669, without relaxation ([noExternalFilterRelaxation] or
      sequential updating).  The new external filter is the new internal one, whose
      first [ms k] coefficients (DANSE), or all (TI-DANSE), are used later on. *)
  Variable mode : bmode.
  Definition bext_rule (k : nat) (e w : coefs) : coefs :=
    match mode with
    | RefOnly => fun _ m => if Nat.eqb m ref then cone else czero
    | NoSingleFusion => if Nat.eqb (ms k) 1 then e else w
    | Fusion => w
    end.

  Definition danse_seq := batch_seq tilde_covmats new_w bext_rule.
  Definition danse_sim := batch_sim tilde_covmats new_w bext_rule.

  (** Centralised (d_classes.py 929-948, d_batch.py 29-50): the channels of all the
      nodes side by side; local: the own channels. *)
  Definition offset (k : nat) : nat := fold_left (fun a q => a + ms q)%nat (seq 0 k) 0%nat.
  Fixpoint locate (q left c : nat) : nat * nat :=
    match left with
    | O => (q, c)
    | S l => if Nat.ltb c (ms q) then (q, c) else locate (S q) l (c - ms q)
    end.
  (** d_classes.py 905-911: a frame is active if it is at one node at least *)
  Definition centr_vad : list bool := map (fun t => existsb (fun q => nth t (vads q) false) (seq 0 nn)) (seq 0 (length (vads 0%nat))).
  Definition y_centr (t : nat) : stft := fun f c => let qm := locate 0 nn c in frame_at (ys (fst qm)) t f (snd qm).
  Definition centr_covmats : tens * tens :=
    or_zero (covmats_batch (map y_centr (seq 0 (length (ys 0%nat)))) centr_vad).
  Definition centr_w (k : nat) : coefs :=
    let m := centr_covmats in
    fun f => update_w (offset nn) (offset k + ref) (inv (offset nn) (fst m f)) (fst m f) (snd m f).
  Definition local_covmats (k : nat) : tens * tens := or_zero (covmats_batch (ys k) (vads k)).
  Definition local_w (k : nat) : coefs :=
    let m := local_covmats k in
    fun f => update_w (ms k) ref (inv (ms k) (fst m f)) (fst m f) (snd m f).
End Sig.
