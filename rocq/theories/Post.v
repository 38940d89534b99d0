(** Model of the chunking of the dynamic metrics (danse_toolbox/d_eval.py) and of the
    conversion of signals to 16-bit integers (danse_toolbox/d_post.py).
    Floating-point numbers are rationals. *)
From Verif Require Import Base.
From Coq Require Import QArith Qround Qabs.
Local Open Scope Z_scope.

(** ** get_dynamic_metric *)
(** d_eval.py 52-53 *)
Definition chunk_size (duration fs : Q) : Z := Qfloor (duration * fs).
(** 59: number of entries of the arrays of a [DynamicMetric]; [N * (1 - ovlp)] is the
    step.  A negative number is refused by [np.zeros]. *)
Definition n_chunks (len N : Z) (step : Q) : res Z :=
  if Qeq_bool step 0 then Err ZeroDivisionError
  else let n := Qfloor (inject_Z len / step) in
       if n <? 0 then Err ValueError else Ok n.
(** [int] of a float: truncation towards zero *)
Definition py_int (q : Q) : Z := if Qle_bool 0 q then Qfloor q else Qceiling q.
(** 413-466: the loop; returns the chunks [i0, i1) on which the metrics are computed and
    stored, in order.  Storing at [c] fails beyond the end of the arrays (428-450); the
    metric functions themselves are not modelled.  Without any metric function nothing
    is stored: at least one is assumed (and, in the error message of 464, used). *)
Fixpoint dyn_loop (fuel : nat) (len N : Z) (step : Q) (n c : Z) : res (list (Z * Z)) :=
  match fuel with
  | O => Err OutOfFuel
  | S f =>
      let i0 := py_int (inject_Z c * step) in
      let i1 := i0 + N in
      if i1 >? len then Ok []
      else if n <=? c then Err IndexError
      else if c + 1 >? 2 * n then Err ValueError
      else do r <- dyn_loop f len N step n (c + 1); Ok ((i0, i1) :: r)
  end.
(** 376-466 *)
Definition dyn_chunks (len N : Z) (ovlp : Q) : res (list (Z * Z)) :=
  let step := (inject_Z N * (1 - ovlp))%Q in
  do n <- n_chunks len N step;
  dyn_loop (S (Z.to_nat n)) len N step n 0.
(** 473-478: number of time stamps, [np.arange(shift, len/fs, shift)] *)
Definition n_stamps (len : Z) (fs duration ovlp : Q) : Z :=
  let shift := (duration * (1 - ovlp))%Q in
  Z.max 0 (Qceiling ((inject_Z len / fs - shift) / shift)).

(** ** normalize_toint16 *)
(** [np.amax] of a non-empty list *)
Definition qmax (x : list Q) : res Q :=
  match x with [] => Err ValueError | a :: r => Ok (fold_left (fun m b => if Qle_bool m b then b else m) r a) end.
(** [astype(np.int16)] of a float: truncation towards zero; out of range, the platform's
    behaviour (x86: the low 16 bits of the 32-bit integer). *)
Definition wrap16 (z : Z) : Z := (z + 32768) mod 65536 - 32768.
Definition to_int16 (q : Q) : Z := wrap16 (py_int q).
(** 1969-1973; a zero maximum gives infinities and NaNs, whose conversion is not
    modelled: an error *)
Definition normalize_toint16 (x : list Q) : res (list Z) :=
  do m <- qmax x;
  if Qeq_bool m 0 then Err ZeroDivisionError
  else Ok (map (fun a => to_int16 (inject_Z 32767 * a / m * (1 # 2))) x).
