(** Model of the choice of the part of the signals over which the speech enhancement metrics
    are computed: siggen/classes.py 766-846 [get_key_time], 489-544
    [get_metrics_key_time] and danse_toolbox/d_post.py 775-808 (first and last sample).

    Simplifications: a VAD is a list of booleans (one source; more raise, 520-521); the
    strings that designate instants are an inductive type ('after_..' carries its parsed
    duration in seconds); rationals instead of floats. *)
From Verif Require Import Base.
From Coq Require Import QArith Qround.
Local Open Scope nat_scope.

(** 786-788: [vadChangesIndices] *)
Definition changes (v : list bool) : list nat :=
  filter (fun i => negb (Bool.eqb (nth i v false) (nth (i - 1) v false))) (seq 1 (length v - 1)).

(** 772-784: [_jump_over_short_changes], with [thr = minNoSpeechDurEndUtterance * fs] *)
Fixpoint jump (fuel : nat) (ch : list nat) (thr : Q) (idx : nat) : res nat :=
  match fuel with
  | O => Err OutOfFuel
  | S f =>
    do a <- get ch idx;
    do b <- get ch (idx + 1);
    if Qlt_le_dec (inject_Z (Z.of_nat b - Z.of_nat a)) thr then jump f ch thr (idx + 2) else Ok idx
  end.

(** Instants: end of the first utterance, beginning of the first one, beginning of the second
    one (plus a duration in seconds), a number of seconds after the start *)
Inductive instant := EndFirst | BegFirst | BegSecond (after : Q) | After (s : Q).
Definition seconds (i : nat) (fs : Q) : Q := inject_Z (Z.of_nat i) / fs.

(** 786-846 *)
Definition key_time (ref : instant) (v : list bool) (fs mindur : Q) : res Q :=
  match v with
  | [] => Err IndexError (* 791 *)
  | [_] => Err ValueError (* 787: [np.diff] of a scalar *)
  | v0 :: _ =>
    let ch := changes v in
    let idx := if v0 then 0 else 1 in (* 793-799 *)
    match ref with
    | EndFirst =>
      do j <- jump (S (length ch)) ch (mindur * fs) idx;
      do a <- get ch j;
      Ok (seconds a fs)
    | BegFirst => (* 811-816 *)
      if idx <? 1 then Ok 0%Q else do a <- get ch (idx - 1); Ok (seconds a fs)
    | BegSecond d => (* 818-833 *)
      do j <- jump (S (length ch)) ch (mindur * fs) idx;
      do b <- get ch (j + 1);
      Ok (seconds b fs + d)%Q
    | After s => Ok s
    end
  end.

(** A node: its VAD, its sampling frequency; 524-544: metric start and end times, [None]
    designates the start or the end of the signal.  The end time uses the length of the data,
    which is that of the VAD (siggen/utils.py 1338). *)
Definition start_time (ref : option instant) (v : list bool) (fs mindur : Q) : res Q :=
  match ref with None => Ok 0%Q | Some r => key_time r v fs mindur end.
Definition end_time (ref : option instant) (v : list bool) (fs mindur : Q) : res Q :=
  match ref with None => Ok (seconds (length v) fs) | Some r => key_time r v fs mindur end.

(** d_post.py 777-778 and 803-808: first sample, sample after the last; [batch] carries the
    DFT size of batch runs *)
Definition window (sref eref : option instant) (v : list bool) (fs mindur : Q) (batch : option Z) : res (Z * Z) :=
  do s <- start_time sref v fs mindur;
  do e <- end_time eref v fs mindur;
  let a := Qfloor (s * fs) in
  let b := Qfloor (e * fs) in
  Ok (a, match batch with
         | Some N => if (Z.of_nat (length v) - N <? b)%Z then (Z.of_nat (length v) - N)%Z else b
         | None => b
         end).
