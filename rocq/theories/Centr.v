(** Model of the exchange of raw sensor signals for the centralised estimate:
    danse_toolbox/d_classes.py 486-490, 1226-1250, 1366-1371, 1542-1572,
    1809-1891.  Matrices are lists of rows (time), a row lists the sensors. *)
From Verif Require Import Base Sched Buffers.
Set Implicit Arguments.
Open Scope Z_scope.

Section Centr.
  Variable A : Type.
  Variable zero : A.
  Notation matrix := (list (list A)).

  (** d_classes.py 1239-1243 and 1821-1824: slot of node [s] at receiver [r]. *)
  Definition slot (r s : nat) : nat := if (s <? r)%nat then s else (s - 1)%nat.

  (** d_classes.py 1231-1238: rows to send.  For [n = 0] the chunk is a
      one-dimensional empty array, which cannot be concatenated to a matrix:
      ValueError at 1246 as soon as there is a receiver. *)
  Definition chunk_centr (nNodes : nat) (y : matrix) (n : Z) : res matrix :=
    if n <? 0 then Ok (py_from n y)
    else if 0 <? n then Ok (py_upto n y)
    else if (1 <? nNodes)%nat then Err ValueError else Ok [].

  (** d_classes.py 1238-1250 [fill_buffers_centr]: loop over the receivers. *)
  Definition fill_centr (nNodes k : nat) (chunk : matrix) (bufs : list (list matrix))
    : res (list (list matrix)) :=
    foldM (fun bufs q =>
      if Nat.eqb q k then Ok bufs
      else do bq <- get bufs q;
           do b <- get bq (slot q k);
           Ok (upd q (upd (slot q k) (b ++ chunk) bq) bufs)) (seq 0 nNodes) bufs.

  (** [np.concatenate((a, b), axis=1)]. *)
  Definition hstack (a b : matrix) : res matrix :=
    if Nat.eqb (length a) (length b)
    then Ok (map (fun p => fst p ++ snd p) (combine a b)) else Err ValueError.

  (** [m[:, lo:hi]]. *)
  Definition cols (lo hi : nat) (m : matrix) : matrix := map (slice lo hi) m.

  Definition sum_sensors (nsens : list nat) (qs : list nat) : nat :=
    list_sum (map (fun q => nth q nsens O) qs).

  (** d_classes.py 1809-1891 [process_incoming_signals_buffers_centr] for node
      [k]: [bufs] its buffers, [yc] the previous matrix; returns the new matrix
      and the flags. *)
  Definition process_centr (nsens : list nat) (k : nat) (first : bool) (Ndft Ns : Z)
      (yc : matrix) (bufs : list matrix) : res (matrix * list Z) :=
    let n := length nsens in
    foldM (fun acc q =>
      if Nat.eqb q k then Ok acc
      else
        do b <- get bufs (slot k q);
        let idxStart := if Nat.eqb (slot k q) 0 then O
                        else sum_sensors nsens (filter (fun i => negb (Nat.eqb i k) && (i <? q)%nat) (seq 0 n)) in
        let idxEnd := (idxStart + nth q nsens O)%nat in
        do r <- assemble (repeat zero (nth q nsens O)) first Ndft Ns (cols idxStart idxEnd yc) b;
        do yk <- hstack (fst acc) (fst r);
        Ok (yk, upd q (snd r) (snd acc)))
      (seq 0 n) (repeat [] (Z.to_nat Ndft), repeat 0 n).

  (** d_classes.py 486-490: sensors of the other nodes, in order. *)
  Definition sensors_others (nsens : list nat) (k : nat) : list nat :=
    map (fun q => nth q nsens O) (filter (fun q => negb (Nat.eqb q k)) (seq 0 (length nsens))).

  (** d_classes.py 1555-1577: time-domain part of [build_ycentr]; [local] is
      the node's own chunk. *)
  Definition build_ycentr (nsens : list nat) (k : nat) (Ndft : Z) (local yc : matrix) : res matrix :=
    let so := sensors_others nsens k in
    do r <- foldM (fun acc q =>
      if Nat.eqb q k then
        do y <- hstack (fst acc) local; Ok (y, snd acc)
      else
        let c := snd acc in
        do y <- hstack (fst acc) (cols (list_sum (firstn c so)) (list_sum (firstn (S c) so)) yc);
        Ok (y, S c)) (seq 0 (length nsens)) (repeat [] (Z.to_nat Ndft), O);
    Ok (fst r).
End Centr.
