(** Model of the extraction of sample blocks and of the time-domain filtering:
    danse_toolbox/d_base.py 1391-1479, 1538-1566, 1871-1937. *)
From Verif Require Import Base.
From Coq Require Import Reals.
Set Implicit Arguments.
Open Scope Z_scope.

Section Chunk.
  (** A row of the signal matrix (one sample of all sensors of a node). *)
  Variable Row : Type.
  Variable zrow : Row.

  (** d_base.py 1418-1426 and 1470-1479: common part.  [idxEnd] may be
      negative; [np.zeros] with a negative size is a ValueError. *)
  Definition chunk_ending (y : list Row) (idxEnd N : Z) : res (list Row * Z * Z) :=
    let idxBeg := Z.max (idxEnd - N) 0 in
    let chunk := py_slice idxBeg idxEnd y in
    if idxEnd - idxBeg <? N then
      let pad := N - Z.of_nat (length chunk) in
      if pad <? 0 then Err ValueError
      else Ok (repeat zrow (Z.to_nat pad) ++ chunk, idxBeg, idxEnd)
    else Ok (chunk, idxBeg, idxEnd).

  (** d_base.py 1391-1426 [local_chunk_for_broadcast].  [t] is an instant on the
      common integer clock and [per] the node's sample period on it, so that
      [floor(t * fs)] is [t / per] (rounding of floats is not modelled). *)
  Definition local_chunk_for_broadcast (y : list Row) (t per DFTsize : Z) :=
    chunk_ending y (t / per) DFTsize.

  (** d_base.py 1429-1479 [local_chunk_for_update]; [whole] is
      [bd == 'wholeChunk']. *)
  Definition local_chunk_for_update (y : list Row) (t per : Z) (whole : bool) (Ndft Ns : Z) :=
    chunk_ending y (if whole then t / per - (Ndft - Ns) else t / per) Ndft.
End Chunk.

(** Real signals. *)
Open Scope R_scope.

(** [np.dot] of one-dimensional arrays. *)
Definition np_dot (a b : list R) : res R :=
  if Nat.eqb (length a) (length b)
  then Ok (fold_right Rplus 0 (map (fun p => fst p * snd p) (combine a b)))
  else Err ValueError.

(** d_base.py 1538-1566 [extract_few_samples_from_convolution]. *)
Definition extract_few_samples (idDesired : list Z) (a b : list R) : res (list R) :=
  let yqzp := repeat 0 (length a) ++ b ++ repeat 0 (length a) in
  mapM (fun id => np_dot (py_slice (id + 1) (id + 1 + Z.of_nat (length a)) yqzp) (rev a)) idDesired.

(** d_base.py 1920-1937: the convolution part of
    [danse_compression_few_samples]; [wIR] and [yq] are given sensor by sensor
    (columns of the Python arrays), [len] is [len(wIR)], the common length of
    the impulse responses. *)
Definition compress_few_samples (len : nat) (wIR yq : list (list R)) (L : nat) : res (list R) :=
  let idDesired := map (fun i => (Z.of_nat len - Z.of_nat L + 1 + Z.of_nat i)%Z) (seq 0 L) in
  do cols <- mapM (fun s => do w <- get wIR s; do y <- get yq s; extract_few_samples idDesired w y)
                  (seq 0 (length yq));
  Ok (map (fun i => fold_right Rplus 0 (map (fun c => nth i c 0) cols)) (seq 0 L)).
