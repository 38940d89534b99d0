(** Model of the energy-based VAD, of the noise levels and of the rotation of
    microphone arrays (siggen/utils.py).  Exact real arithmetic. *)
From Verif Require Import Base.
From Coq Require Import QArith Reals.
Open Scope R_scope.

Definition rsum (l : list R) : R := fold_right Rplus 0 l.
(** [np.sum(x ** 2)], [np.mean(np.abs(x) ** 2)] *)
Definition energy (x : list R) : R := rsum (map (fun v => v * v) x).
Definition power (x : list R) : R := energy x / INR (length x).

(** 1137-1152 [compute_VAD]; the mean of an empty array is a division by zero
    (compiled by numba). *)
Definition compute_vad (chunk : list R) (thr : R) : res bool :=
  match chunk with
  | [] => Err ZeroDivisionError
  | _ => Ok (if Rlt_dec thr (power chunk) then true else false)
  end.

(** 1112-1115: window length in samples *)
Definition win_len (tw fs : Q) : nat :=
  if Qlt_le_dec 0 tw then Z.to_nat (Z.quot (Qnum (tw * fs)) (Zpos (Qden (tw * fs)))) else 1%nat.

(** 1117-1125: the loop of [oracleVAD] over a one-dimensional signal; natural
    subtraction is the [np.amax] with 0. *)
Definition oracle_vad (x : list R) (nw : nat) (thr : R) : res (list bool) :=
  mapM (fun ii => compute_vad (slice (ii - nw / 2) (Nat.min (ii + nw / 2) (length x)) x) thr) (seq 0 (length x)).

(** 921, 932-937 [get_or_load_vad] without the cache; [np.amax] of an empty array
    is a ValueError. *)
Definition amax2 (x : list R) : res R :=
  match x with [] => Err ValueError | v :: l => Ok (fold_right (fun w m => Rmax (w * w) m) (v * v) l) end.
Definition get_vad (x : list R) (efact : R) (nw : nat) : res (list bool) :=
  do m <- amax2 x; oracle_vad x nw (m / efact).

(** 1421-1431 [apply_noise] *)
Definition log10 (x : R) : R := ln x / ln 10.
Definition pow10 (x : R) : R := Rpower 10 x.
Definition scale (a : R) (x : list R) : list R := map (Rmult a) x.
Definition vadd (x y : list R) : list R := map (fun p => fst p + snd p) (combine x y).
Definition apply_noise (sig noise : list R) (snr : R) : list R * list R :=
  let cur := 10 * log10 (power sig / power noise) in
  let noise' := scale (pow10 (- (snr - cur) / 20)) noise in
  (vadd sig noise', noise').

(** [scipy.signal.lfilter(ir, 1, x)] *)
Definition lfilter (ir x : list R) : list R :=
  map (fun n => rsum (map (fun k => nth k ir 0 * (if Nat.leb k n then nth (n - k) x 0 else 0)) (seq 0 (length ir)))) (seq 0 (length x)).
(** 212-223: scaling of noise source [n] so that the SNR at a reference microphone
    is [snr]; [ds] are the desired sources, [irs] their impulse responses. *)
Definition mic_signal (len : nat) (irs ds : list (list R)) : list R :=
  fold_left (fun acc p => vadd acc (lfilter (fst p) (snd p))) (combine irs ds) (repeat 0 len).
Definition noise_for_mic_snr (irs ds : list (list R)) (ir_n n : list R) (snr : R) : list R :=
  let y := mic_signal (length n) irs ds in
  let cur := 10 * log10 (energy y / energy (lfilter ir_n n)) in
  scale (pow10 ((cur - snr) / 20)) n.

(** ** Rotation: 1685-1729 [rotate_array_yx] with a given target vector *)
Record v3 := mkV { vx : R; vy : R; vz : R }.
Definition vsub (a b : v3) : v3 := mkV (vx a - vx b) (vy a - vy b) (vz a - vz b).
Definition vplus (a b : v3) : v3 := mkV (vx a + vx b) (vy a + vy b) (vz a + vz b).
Definition dot (a b : v3) : R := vx a * vx b + vy a * vy b + vz a * vz b.
Definition cross (a b : v3) : v3 :=
  mkV (vy a * vz b - vz a * vy b) (vz a * vx b - vx a * vz b) (vx a * vy b - vy a * vx b).
Definition vnorm (a : v3) : R := sqrt (dot a a).
Definition vscale (k : R) (a : v3) : v3 := mkV (k * vx a) (k * vy a) (k * vz a).
(** matrices as their rows *)
Record m3 := mkM { r1 : v3; r2 : v3; r3 : v3 }.
Definition mvec3 (m : m3) (a : v3) : v3 := mkV (dot (r1 m) a) (dot (r2 m) a) (dot (r3 m) a).
Definition mcol (m : m3) (j : nat) : v3 :=
  match j with
  | 0%nat => mkV (vx (r1 m)) (vx (r2 m)) (vx (r3 m))
  | 1%nat => mkV (vy (r1 m)) (vy (r2 m)) (vy (r3 m))
  | _ => mkV (vz (r1 m)) (vz (r2 m)) (vz (r3 m))
  end.
Definition mrow_mul (r : v3) (m : m3) : v3 := mkV (dot r (mcol m 0)) (dot r (mcol m 1)) (dot r (mcol m 2)).
Definition mmul3 (a b : m3) : m3 := mkM (mrow_mul (r1 a) b) (mrow_mul (r2 a) b) (mrow_mul (r3 a) b).
Definition madd3 (a b : m3) : m3 := mkM (vplus (r1 a) (r1 b)) (vplus (r2 a) (r2 b)) (vplus (r3 a) (r3 b)).
Definition mscale3 (k : R) (a : m3) : m3 := mkM (vscale k (r1 a)) (vscale k (r2 a)) (vscale k (r3 a)).
Definition eye3 : m3 := mkM (mkV 1 0 0) (mkV 0 1 0) (mkV 0 0 1).
Definition zaxis : v3 := mkV 0 0 1.

(** 1708-1722 *)
Definition rot_mat (target : v3) : m3 :=
  let b := vscale (/ vnorm target) target in
  let v := cross zaxis b in
  let s := vnorm v in
  let c := dot zaxis b in
  let k := mkM (mkV 0 (- vz v) (vy v)) (mkV (vz v) 0 (- vx v)) (mkV (- vy v) (vx v) 0) in
  madd3 (madd3 eye3 k) (mscale3 ((1 - c) / (s * s)) (mmul3 k k)).
(** 1705, 1724-1728 *)
Definition rotate_array (target : v3) (pts : list v3) : list v3 :=
  map (fun p => vplus (mvec3 (rot_mat target) (vsub p target)) target) pts.
