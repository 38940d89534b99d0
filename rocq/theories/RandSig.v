(** Model of the random source signals and random impulse responses:
    /repo/siggen/utils.py 676-748 ([generate_rand_signal]), 278-308
    ([generate_random_rir]) and 229-275 ([generate_random_impulse_responses]).

    Simplifications: samples are reals; durations, sampling frequency and the numbers
    drawn for pauses are exact rationals instead of floating-point numbers; random
    numbers are arguments ([u] in [0,1] for a uniform draw, [z] for a standard normal
    draw). *)
From Coq Require Import QArith Qround Reals.
From Verif Require Import Base.
Local Open Scope R_scope.

(** Python's [int] on a number: truncation towards zero *)
Definition int_of (q : Q) : Z := if Qle_bool 0 q then Qfloor q else (- Qfloor (- q))%Z.
(** [y[a:b] = 0] *)
Definition zero_slice (a b : Z) (y : list R) : list R :=
  let a' := py_bound (length y) a in
  let b' := py_bound (length y) b in
  firstn a' y ++ repeat 0 (b' - a') ++ skipn (Nat.max a' b') y.
(** [np.arange(start, stop, step)] *)
Definition arange (start stop step : Q) : res (list Q) :=
  if Qeq_bool step 0 then Err ZeroDivisionError
  else Ok (map (fun k => start + inject_Z (Z.of_nat k) * step)%Q (seq 0 (Z.to_nat (Qceiling ((stop - start) / step)%Q)))).

Inductive distribution := Uniform | Normal | OtherDistribution.
(** 700-712, 289-301: [np.random.uniform(min, max, (n,))] and
    [np.random.normal(0, max(|max|,|min|), (n,))] from the underlying draws; any other
    name leaves the variable undefined *)
Definition draw (d : distribution) (lo hi : R) (us : list R) : res (list R) :=
  match d with
  | Uniform => Ok (map (fun u => lo + (hi - lo) * u) us)
  | Normal => Ok (map (fun z => Rmax (Rabs hi) (Rabs lo) * z) us)
  | OtherDistribution => Err UnboundLocalError
  end.

Inductive pauses := RandomPauses | PredefinedPauses | NoPauses.
(** /repo/siggen/classes.py 32-62 *)
Record rand_params := mkRP {
  rp_distribution : distribution; rp_min : R; rp_max : R; rp_pauses : pauses;
  rp_pause : Q; rp_spacing : Q;               (* pauseDuration, pauseSpacing *)
  rp_rmin : Q; rp_rmax : Q;                   (* randPauseDuration_min, _max *)
  rp_start : bool                             (* startWithPause *)
}.
(** 716-721 *)
Definition num_pauses (p : rand_params) (n : nat) (fs : Q) : res nat :=
  let d := ((rp_rmin p + rp_rmax p) * fs)%Q in
  if Qeq_bool d 0 then Err ZeroDivisionError
  else Ok (Z.to_nat (int_of (inject_Z (Z.of_nat n) / d / 2)%Q)).
(** 723-732: one random pause from its two draws *)
Definition random_pause (p : rand_params) (n : nat) (fs : Q) (d : Q * Q) (y : list R) : list R :=
  let leng := (rp_rmin p + (rp_rmax p - rp_rmin p) * fst d)%Q in
  let pos := ((inject_Z (Z.of_nat n) - leng * fs) * snd d)%Q in
  zero_slice (int_of pos) (int_of (pos + leng * fs)%Q) y.
(** 734-746 *)
Definition regular_pauses (p : rand_params) (n : nat) (fs : Q) (y : list R) : res (list R) :=
  let leng := (rp_pause p * fs)%Q in
  let space := (rp_spacing p * fs)%Q in
  let start := if rp_start p then 0%Q else space in
  do pos <- arange start (inject_Z (Z.of_nat n)) (space + leng)%Q;
  Ok (fold_left (fun y q => zero_slice (int_of q) (int_of (q + leng)%Q) y) pos y).
(** 676-748; [us]: the [n] draws for the samples, [ds i]: the two draws for pause [i] *)
Definition generate_rand_signal (p : rand_params) (n : nat) (fs : Q) (no_pauses : bool) (us : nat -> R) (ds : nat -> Q * Q) : res (list R) :=
  do y <- draw (rp_distribution p) (rp_min p) (rp_max p) (map us (seq 0 n));
  if no_pauses then Ok y else
  match rp_pauses p with
  | RandomPauses =>
      do np <- num_pauses p n fs;
      Ok (fold_left (fun y i => random_pause p n fs (ds i) y) (seq 0 np) y)
  | PredefinedPauses => regular_pauses p n fs y
  | NoPauses => Ok y
  end.

Inductive decay := NoDecay | ExponentialDecay | ImmediateDecay.
(** /repo/siggen/classes.py 15-29 *)
Record rir_params := mkIR {
  ir_distribution : distribution; ir_min : R; ir_max : R; ir_duration : Q; ir_decay : decay; ir_tau : Q }.
(** 287-307: one impulse response *)
Definition random_rir (p : rir_params) (fs : Q) (us : nat -> R) : res (list R) :=
  let len := int_of (ir_duration p * fs)%Q in
  if (len <? 0)%Z then Err ValueError else
  do r <- draw (ir_distribution p) (ir_min p) (ir_max p) (map us (seq 0 (Z.to_nat len)));
  match ir_decay p with
  | NoDecay => Ok r
  | ExponentialDecay =>
      Ok (map (fun q => fst q * exp (- INR (snd q) / Q2R (ir_tau p * fs))) (combine r (seq 0 (length r))))
  | ImmediateDecay =>
      match r with
      | [] => Err IndexError
      | x :: r' => Ok (Rabs x :: map (fun _ => 0) r')
      end
  end.
(** 278-308; [us j]: the draws for source [j] *)
Definition random_rirs (p : rir_params) (n : nat) (fs : Q) (us : nat -> nat -> R) : res (list (list R)) :=
  mapM (fun j => random_rir p fs (us j)) (seq 0 n).
(** 229-275; [ud k m j], [un k m j]: the draws for sensor [m] of node [k] and desired or
    noise source [j].  Result: per node, per sensor, per source, for the desired sources
    and for the noise sources. *)
Definition random_impulse_responses (p : rir_params) (n_nodes : nat) (sensors : list nat) (n_d n_n : nat) (fs : Q) (ud un : nat -> nat -> nat -> nat -> R) : res (list (list (list (list R))) * list (list (list (list R)))) :=
  do l <- mapM (fun k =>
    do mk <- get sensors k;
    do l <- mapM (fun m =>
      do d <- random_rirs p n_d fs (ud k m);
      do n <- random_rirs p n_n fs (un k m);
      Ok (d, n)) (seq 0 mk);
    Ok (map fst l, map snd l)) (seq 0 n_nodes);
  Ok (map fst l, map snd l).
