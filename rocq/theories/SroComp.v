(** Model of the compensation of sampling-rate offsets by phase shifts
    (danse_toolbox/d_classes.py 1936-2046 and 2562-2621). *)
From Verif Require Import Base Buffers Centr Level Cx.
From Coq Require Import Reals.
Local Open Scope R_scope.

(** 1957-1976: factors of the full-sample drifts of the neighbours (by position in
    the list of neighbours); [None] is the NaN flag. *)
Definition extra_shifts (dim nLoc : nat) (flags : list (option R)) : res (list R) :=
  foldM (fun acc q => match nth q flags None with Some f => do _ <- get acc (nLoc + q); Ok (upd (nLoc + q) f acc) | None => Ok acc end)
    (seq 0 (length flags)) (repeat 0 dim).
(** 1973-1976, 2016: an undefined flag asks to skip the update. *)
Definition skip_update (flags : list (option R)) : bool := existsb (fun f => match f with None => true | _ => false end) flags.

(** numpy slice assignment of one value *)
Definition set_range (b e : nat) (v : R) (l : list R) : list R :=
  map (fun p => if (b <=? fst p)%nat && (fst p <? e)%nat then v else snd p) (combine (seq 0 (length l)) l).
(** 1999-2016: the same for the centralised vector. *)
Definition extra_shifts_centr (nsens : list nat) (k : nat) (flags : list (option R)) : list R :=
  let so := sensors_others nsens k in
  fold_left (fun acc q =>
    if Nat.eqb q k then acc
    else match nth q flags None with
         | Some f =>
             let b := list_sum (firstn q so) in
             let e := list_sum (firstn (S q) so) in
             set_range b (if Nat.eqb e b then S e else e) f acc
         | None => acc
         end) (seq 0 (length nsens)) (repeat 0 (list_sum nsens)).
Definition skip_update_centr (k : nat) (flags : list (option R)) : bool :=
  existsb (fun q => negb (Nat.eqb q k) && match nth q flags None with None => true | _ => false end) (seq 0 (length flags)).

(** 1990-1994, 2034-2038: phase shift of every bin (rows) and channel (columns) *)
Definition apply_shifts (N : nat) (psf : list R) (y : list (list cx)) : list (list cx) :=
  map (fun p => map (fun c => (snd c * cis (- (2 * PI / INR N * (INR (fst p) * fst c))))%cx) (combine psf (snd p)))
    (combine (seq 0 (length y)) y).

(** 2578-2594: the estimate for each neighbour moves its factor. *)
Definition move_shifts (nLoc : nat) (Ns : R) (est psf : list R) : res (list R) :=
  foldM (fun acc q => do v <- get acc (nLoc + q); Ok (upd (nLoc + q) (v - nth q est 0 * Ns) acc)) (seq 0 (length est)) psf.
(** 2596-2621: for every node, on all its sensors *)
Definition add_range (b e : nat) (v : R) (l : list R) : list R :=
  map (fun p => if (b <=? fst p)%nat && (fst p <? e)%nat then snd p + v else snd p) (combine (seq 0 (length l)) l).
Definition move_shifts_centr (nsens : list nat) (Ns : R) (est psf : list R) : list R :=
  fold_left (fun acc q => add_range (list_sum (firstn q nsens)) (list_sum (firstn (S q) nsens)) (- (nth q est 0 * Ns)) acc)
    (seq 0 (length nsens)) psf.
(** 2590-2592, 2613-2615: oracle knowledge of the offsets, in parts per million *)
Definition oracle_est (sros : list R) (nodes : list nat) (k : nat) : list R :=
  map (fun q => (nth q sros 0 - nth k sros 0) * / 10 ^ 6) nodes.

(** What one iteration receives: flags, offset estimates and observed spectra. *)
Record sro_in := mkSI { si_flags : list (option R); si_est : list R; si_y : list (list cx) }.

(** 1252-1330 restricted to offsets: compensation with the factors so far, flags
    included, then update of the factors.  Both with [compensateSROs] and
    [includeFSDflags]. *)
Definition sro_step (nLoc N : nat) (Ns : R) (st : list R * list (bool * list (list cx))) (i : sro_in) : res (list R * list (bool * list (list cx))) :=
  do x <- extra_shifts (length (fst st)) nLoc (si_flags i);
  let psf := vadd (fst st) x in
  do psf' <- move_shifts nLoc Ns (si_est i) psf;
  Ok (psf', snd st ++ [(skip_update (si_flags i), apply_shifts N psf (si_y i))]).
Definition sro_run (nLoc nNeigh N : nat) (Ns : R) (l : list sro_in) : res (list R * list (bool * list (list cx))) :=
  foldM (sro_step nLoc N Ns) l (repeat 0 (nLoc + nNeigh), []).
(** The same for the centralised vector of node [k]. *)
Definition sro_step_centr (nsens : list nat) (k N : nat) (Ns : R) (st : list R * list (bool * list (list cx))) (i : sro_in) : list R * list (bool * list (list cx)) :=
  let psf := vadd (fst st) (extra_shifts_centr nsens k (si_flags i)) in
  (move_shifts_centr nsens Ns (si_est i) psf, snd st ++ [(skip_update_centr k (si_flags i), apply_shifts N psf (si_y i))]).
Definition sro_run_centr (nsens : list nat) (k N : nat) (Ns : R) (l : list sro_in) : list R * list (bool * list (list cx)) :=
  fold_left (sro_step_centr nsens k N Ns) l (repeat 0 (list_sum nsens), []).
