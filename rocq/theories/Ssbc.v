(** Model of the observation vector for single-sensor broadcasting:
    /repo/danse_toolbox/d_classes.py 1587-1612 (time-domain part of [build_yssbc]).
    Matrices are lists of rows (time), a row lists the sensors, as in Centr.v. *)
From Verif Require Import Base Buffers Centr.
Set Implicit Arguments.

Section Ssbc.
  Variable A : Type.
  Notation matrix := (list (list A)).
  (** [m[:, i][:, np.newaxis]] *)
  Definition column (i : nat) (m : matrix) : res matrix := mapM (fun row => do x <- get row i; Ok [x]) m.
  (** 1601-1612; [local] is the node's own chunk, [yc] the sensor signals received from
      the other nodes *)
  Definition build_yssbc (nsens : list nat) (k : nat) (local yc : matrix) : res matrix :=
    let so := sensors_others nsens k in
    do r <- foldM (fun acc q =>
      if Nat.eqb q k then Ok acc
      else
        do c <- column (list_sum (firstn (snd acc) so)) yc;
        do y <- hstack (fst acc) c;
        Ok (y, S (snd acc))) (seq 0 (length nsens)) (local, O);
    Ok (fst r).
End Ssbc.
