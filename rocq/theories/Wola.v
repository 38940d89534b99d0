(** Model of the transformation back to the time domain and of the whole-chunk
    compression: danse_toolbox/d_base.py 1482-1535, 1759-1868 (and, for a given
    compression vector, d_classes.py 3131-3208). *)
From Verif Require Import Base Cx.
From Coq Require Import Reals.
Open Scope R_scope.

(** d_base.py 1482-1535 [back_to_time_domain] for one column ([x.ndim == 1], or
    one column of a two-dimensional array; [axis] only selects the direction).
    Returns the caller's array after the call (lines 1518-1519 write into it)
    and the result.  [n/2 + 1] is a float division: odd [n] never matches.
    [np.fft.ifft] with [n = 0] is a ValueError. *)
Definition real_ends (x : list cx) : list cx :=
  let x1 := upd 0 (cr (re (nth 0 x czero))) x in
  upd (length x - 1) (cr (re (nth (length x - 1) x1 czero))) x1.

Definition back_to_time_domain (x : list cx) (n : nat) : res (list cx * list cx) :=
  if negb (Nat.eqb (2 * length x) (n + 2)) then Err ValueError
  else
    let x' := real_ends x in
    let full := x' ++ removelast (rev (map conj (removelast x'))) in
    if Nat.eqb n 0 then Err ValueError
    else Ok (x', map (idft n (fun k => nth k full czero)) (seq 0 n)).

(** [not np.any(z)]. *)
Definition all_zero (z : list R) : bool :=
  forallb (fun v => if Req_EM_T v 0 then true else false) z.

(** [dst[s] = src] for a slice [s] selecting [n] elements: numpy requires equal
    lengths, or one element that is repeated. *)
Definition fit (n : nat) (src : list R) : res (list R) :=
  if Nat.eqb (length src) n then Ok src
  else if Nat.eqb (length src) 1 then Ok (repeat (nth 0 src 0) n)
  else Err ValueError.

(** Lines 1776-1807: analysis, fusion ([wHat] and [yq] sensor by sensor, i.e.
    columns of the Python arrays).  The single-sensor branch computes the same
    sum with one term. *)
Definition fused_spectrum (N Ns : nat) (h : list R) (wHat : list (list cx)) (yq : list (list R)) : list cx :=
  map (fun i => csum (length yq) (fun s =>
         (conj (nth i (nth s wHat []) czero) *
          (dft N (fun m => cr (nth m (nth s yq []) 0 * nth m h 0)) i * cr (/ sqrt (INR Ns))))%cx))
      (seq 0 (N / 2 + 1)).

(** Lines 1834-1840: the normalisation factors of the first [Ns] samples. *)
Definition norm_val (N Ns : nat) (h : list R) : res (list R) :=
  do v <- fold_left (fun acc ii =>
      do v <- acc;
      let lo := (ii * Ns)%nat in
      let hi := Nat.min (lo + N) (N + Ns) in
      do src <- fit (hi - lo) (map (fun x => x * x) h);
      Ok (map (fun j => nth j v 0 + if (lo <=? j)%nat && (j <? hi)%nat then nth (j - lo) src 0 else 0)
              (seq 0 (N + Ns))))
    (seq 0 (N / Ns)) (Ok (repeat 0 (N + Ns)));
  Ok (firstn Ns (skipn Ns v)).

(** d_base.py 1759-1868 [danse_compression_whole_chunk] for [0 < Ns <= N] and
    columns of [N] samples; [prev] is [zqPrevious] ([] for None or an empty
    array).  A division by a zero normalisation factor gives inf or nan in
    numpy; theorems assume the factors positive. *)
Definition compress_whole_chunk (N Ns : nat) (h f : list R) (wHat : list (list cx))
    (yq : list (list R)) (prev : list R) : res (list cx * list R) :=
  do b <- back_to_time_domain (fused_spectrum N Ns h wHat yq) N;
  let (zqHat, t) := b in
  let cur := map (fun j => sqrt (INR Ns) * re (nth j t czero) * nth j f 0) (seq 0 N) in
  if all_zero prev then Ok (zqHat, cur)
  else
    do p <- fit (N - Ns) (py_from (- Z.of_nat (N - Ns)) prev);
    let z := map (fun j => (if (j <? N - Ns)%nat then nth j p 0 else 0) + nth j cur 0) (seq 0 N) in
    do nv <- norm_val N Ns h;
    Ok (zqHat, map (fun j => if (j <? Ns)%nat then nth j z 0 / nth j nv 0 else nth j z 0) (seq 0 N)).

(** d_classes.py 1066-1090: the successive whole-chunk broadcasts of a node,
    hop by hop; [wAt m] are the fusion filters in use at broadcast [m] and
    [yAt m] the block of that broadcast.  Returns the compressed blocks. *)
Fixpoint compress_run (N Ns : nat) (h f : list R) (wAt : nat -> list (list cx))
    (yAt : nat -> list (list R)) (count m : nat) (prev : list R) : res (list (list R)) :=
  match count with
  | O => Ok []
  | S count' =>
    do r <- compress_whole_chunk N Ns h f (wAt m) (yAt m) prev;
    do rest <- compress_run N Ns h f wAt yAt count' (S m) (snd r);
    Ok (snd r :: rest)
  end.
