(** Model of the online resampler (dxcpphat/online_resampler.py), over the reals. *)
From Verif Require Import Base Cx Dxcp.
From Coq Require Import Reals.
Local Open Scope R_scope.

(** [np.round]: to the nearest integer, halves to the even one *)
Definition np_round (x : R) : Z :=
  let f := Int_part x in
  if Rlt_dec (x - IZR f) (1 / 2) then f
  else if Rlt_dec (1 / 2) (x - IZR f) then (f + 1)%Z
  else if Z.even f then f else (f + 1)%Z.

(** [hann(2 B, sym=False)] *)
Definition hann_per (B n : nat) : R := / 2 - / 2 * cos (2 * PI * INR n / INR (2 * B)).
(** 27: entry [k] of [fftshift(arange(-N/2, N/2))] for even [N] *)
Definition kfreq (N k : nat) : Z := if Nat.ltb k (N / 2) then Z.of_nat k else (Z.of_nat k - Z.of_nat N)%Z.

Record rsmp := mkRs { r_shift : R; r_in : list R; r_out : list R }.
(** 24-32 *)
Definition rs_new (B : nat) : rsmp := mkRs 0 (repeat 0 (4 * B)) (repeat 0 (3 * B)).

(** 53-72: range of the input buffer to read, and whether the shift was undone *)
Definition select_range (B : nat) (integer_shift : Z) : Z * Z * bool :=
  let b := Z.of_nat B in
  let s := (b + integer_shift)%Z in
  let e := (b + 2 * b + integer_shift)%Z in
  if Z.ltb s 0 then (0%Z, (e - s)%Z, true)
  else if Z.leb (4 * b) e then ((s - (e - 4 * b))%Z, (4 * b)%Z, true)
  else (s, e, false).

(** 75-76, 79: [np.fft.fft(win * selected, 4 B)], phase shift, real part of the inverse
    transform, first [2 B] samples *)
Definition shifted (B : nat) (sel : list R) (rest : R) : list R :=
  let N := (4 * B)%nat in
  let x := fun n => cr (if Nat.ltb n (2 * B) then hann_per B n * nth n sel 0 else 0) in
  let X := fun k => (dft N x k * cis (- (2 * PI * IZR (kfreq N k) / INR N * rest)))%cx in
  map (fun n => re (idft N X n)) (seq 0 (2 * B)).

(** 35-82 [process]; the result is the output block, the range read, and the new state.
    A block of another length than [B] does not fit the buffer (one-sample blocks would
    be repeated by numpy; not modelled), and the window does not fit a selection of
    another length than [2 B]. *)
Definition rs_process (B : nat) (st : rsmp) (block : list R) (sro sto : R) : res (list R * (Z * Z) * rsmp) :=
  if negb (Nat.eqb (length block) B) then Err ValueError
  else
    let inb := skipn B (firstn (4 * B) (r_in st)) ++ block in
    let sh := r_shift st + sro * / 1000000 * INR B in
    let acc := sh + sto in
    let ish := np_round acc in
    let rest := IZR ish - acc in
    let '(s, e, undo) := select_range B ish in
    let sh' := if undo then sh - sro * / 1000000 * INR B else sh in
    let sel := py_slice s e inb in
    if negb (Nat.eqb (length sel) (2 * B)) then Err ValueError
    else
      let tail := map (fun p => fst p + snd p) (combine (skipn B (r_out st)) (shifted B sel rest)) in
      Ok (firstn B tail, (s, e), mkRs sh' inb (tail ++ repeat 0 B)).

Fixpoint rs_run (B : nat) (st : rsmp) (inp : list (list R * R * R)) : res (list (list R * (Z * Z)) * rsmp) :=
  match inp with
  | [] => Ok ([], st)
  | (block, sro, sto) :: inp' =>
      do p <- rs_process B st block sro sto;
      do q <- rs_run B (snd p) inp';
      Ok (fst p :: fst q, snd q)
  end.

(** ** dxcpphat/sro_estimation.py 43-57, 85-95: the two channels fed to the estimator by
    the closed-loop controllers: the second resampled with the current estimate [est],
    the first through a delay line of three frames *)
Definition sync_new (B : nat) : dbuf (list R) * rsmp := (db_new (repeat 0 B) 3, rs_new B).
Definition sync_step (B : nat) (st : dbuf (list R) * rsmp) (x0 x1 : list R) (est : R)
  : res (list R * list R * (dbuf (list R) * rsmp)) :=
  do p <- rs_process B (snd st) x1 (- est) 0;
  do db <- db_write (fst st) x0;
  do z0 <- db_read db;
  Ok (z0, fst (fst p), (db, snd p)).
Fixpoint sync_run (B : nat) (st : dbuf (list R) * rsmp) (inp : list (list R * list R * R)) : res (list (list R * list R)) :=
  match inp with
  | [] => Ok []
  | (x0, x1, est) :: inp' =>
      do p <- sync_step B st x0 x1 est;
      do q <- sync_run B (snd p) inp';
      Ok (fst p :: q)
  end.
