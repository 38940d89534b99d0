(** Model of the inference of sampling frequencies from time stamps and of its use for
    frames: danse_toolbox/d_base.py 454-510 [check_clock_jitter],
    [ensure_shortfat_orientation], [base_event_checks]; d_core.py 54-84;
    d_base.py 1391-1479.

    Reals instead of floats. *)
From Verif Require Import Base.
From Coq Require Import Reals.
Local Open Scope R_scope.

(** [np.floor], [np.ceil], [np.rint] (ties to even), [np.log10], [np.round(x, p)] *)
Definition floor (x : R) : Z := Int_part x.
Definition ceil (x : R) : Z := (- floor (- x))%Z.
Definition rint (x : R) : Z :=
  let f := floor x in
  if Rlt_dec (x - IZR f) (1 / 2) then f
  else if Rlt_dec (1 / 2) (x - IZR f) then (f + 1)%Z
  else if Z.even f then f else (f + 1)%Z.
Definition log10 (x : R) : R := ln x / ln 10.
Definition np_round (p : nat) (x : R) : R := IZR (rint (x * 10 ^ p)) / 10 ^ p.

Definition sum (l : list R) : R := fold_right Rplus 0 l.
Definition mean (l : list R) : R := sum l / INR (length l).
(** 472 [np.diff] *)
Definition diff (t : list R) : list R := map (fun p => snd p - fst p) (combine t (tl t)).
(** 474 *)
Definition precision (deltas : list R) : nat := Z.to_nat (ceil (Rabs (log10 (mean deltas / 10 ^ 4)))).

(** 470-478 for one node.  Without intervals, or with a mean that is not positive,
    [int] fails on nan or infinity. *)
Definition infer_fs (t : list R) : res R :=
  let deltas := diff t in
  match deltas with
  | [] => Err ValueError
  | d :: ds =>
    if Rle_dec (mean deltas) 0 then Err ValueError
    else
      let p := precision deltas in
      if forallb (fun x => if Req_EM_T (np_round p x) (np_round p d) then true else false) ds
      then Ok (np_round 3 (1 / np_round p d))
      else Err ValueError
  end.

(** 482-493, matrices only; [cols] holds the time stamps of each node. *)
Definition ensure_shortfat (cols : list (list R)) : list (list R) :=
  let nt := length (nth 0 cols []) in
  if (nt <? length cols)%nat then map (fun i => map (fun c => nth i c 0) cols) (seq 0 nt) else cols.
(** 496-510 *)
Definition base_event_checks (sim : bool) (ref : nat) (cols : list (list R)) : res (list (list R) * list R) :=
  let cols := ensure_shortfat cols in
  do fs <- mapM infer_fs cols;
  if sim then
    do f0 <- get fs ref;
    if forallb (fun f => if Req_EM_T f f0 then true else false) fs then Ok (cols, fs) else Err ValueError
  else Ok (cols, fs).

(** d_core.py 71-80 hands the inferred frequency to [broadcast] and
    [update_and_estimate]; d_base.py 1415, 1463: index after the last sample of a frame. *)
Definition frame_end (t fs : R) : Z := floor (t * fs).
