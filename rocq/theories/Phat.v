(** Model of the DXCP-PhaT estimator of the sampling-rate and sampling-time offsets between
    two signals: dxcpphat/sro_estimation.py 119-206 (parameters and initial state) and
    230-345 ([_stateupdate]).  The input buffer and the choice of the frames for which the
    state is updated are in Dxcp.v ([process_data]).

    Real numbers instead of floats; the implied parameters are computed exactly.  The FFT
    size is even, [2 * half]; durations are whole seconds; the FFT
    size is at least 6 and at least the shift.  Spectra and correlations are
    functions of their index.  [signal.resample] is modelled after its documentation and
    source (real input of odd length, window given as an array: applied as it is in the
    frequency domain, folded for real input); the Kaiser window is the parameter [kw].  A
    zero denominator, nan in numpy, is a ZeroDivisionError here.  The debugging log of the
    correlation (271) and [ResetPeriod_sec], which nothing reads, are left out. *)
From Verif Require Import Base Cx ChunkSpec.
From Coq Require Import Reals.
Local Open Scope R_scope.

(** 119-135, the parameters that matter *)
Record config := mkCfg {
  fs : nat; shift : nat; half : nat; accum_sec : nat; alpha1 : R; alpha2 : R; alpha3 : R;
  add_wait : nat; settle : nat; floor_abs : R; sro_max : nat; ups : nat; kw : nat -> R }.

Section Estimator.
  Variable c : config.
  Definition size : nat := 2 * half c.
  (** 174-188 *)
  Definition accum_frames : nat := accum_sec c * fs c / shift c.
  Definition b_samples : nat := accum_frames * shift c.
  Definition upsilon : nat := half c - 1.
  Definition lambda : nat := b_samples * sro_max c / 10 ^ 6 + 1.
  Definition cont_frames : nat := accum_frames + 1.
  Definition inv_shift : nat := size / shift c.
  Definition low_bin : nat := size / 200.
  Definition upp_bin : nat := 19 * size / 40.
  (** 252 and 277, 302: the updates at which the second correlation and the estimates start *)
  Definition ell_corr : nat := cont_frames + (inv_shift - 1) + add_wait c.
  Definition ell_est : nat := ell_corr + settle c.

  (** 190-206 *)
  Record state := mkSt {
    ell : nat; started : bool; gcsd1 : nat -> cx; cont : list (nat -> cx); gcsd2 : nat -> cx;
    gccf1 : nat -> R; sro : R; sto : R }.
  Definition zeros : nat -> cx := fun _ => czero.
  Definition st0 : state := mkSt 1 false zeros (repeat zeros cont_frames) zeros (fun _ => 0) 0 0.

  (** 233-234: [signal.blackman(size, sym=False)] *)
  Definition blackman (n : nat) : R :=
    42 / 100 - 1 / 2 * cos (2 * PI * INR n / INR size) + 8 / 100 * cos (4 * PI * INR n / INR size).
  Definition spectrum (x : nat -> R) : nat -> cx := dft size (fun n => cr (x n * blackman n)).
  Definition cabs (a : cx) : R := sqrt (re a * re a + im a * im a).
  (** 237-241 *)
  Definition phat (x1 x2 : nat -> R) (k : nat) : cx :=
    let act := (spectrum x1 k * conj (spectrum x2 k))%cx in
    let a := if Rlt_dec (cabs act) (floor_abs c) then floor_abs c else cabs act in
    (act * cr (/ a))%cx.
  (** recursive averaging, 242-245, 255-258 *)
  Definition average (st : bool) (al : R) (old new : nat -> cx) (k : nat) : cx :=
    if st then (cr al * old k + cr (1 - al) * new k)%cx else new k.

  (** 262-265, 312-315: bins set to zero *)
  Definition masked (k : nat) : bool :=
    Nat.ltb k low_bin || (Nat.leb (size - low_bin + 1) k && Nat.ltb k size)
    || (Nat.leb (upp_bin - 1) k && Nat.ltb k (half c + 1 + (half c + 1 - upp_bin))).
  Definition mask (X : nat -> cx) (k : nat) : cx := if masked k then czero else X k.
  (** 267-269, 317-318: [fftshift] of the real part of [ifft], restricted to lags of at most
      [m] samples; entry [j] is the lag [j - m] *)
  Definition correlation (m : nat) (X : nat -> cx) (j : nat) : R :=
    re (idft size X ((half c - m + j + half c) mod size)).

  (** 280-281: [p]-fold upsampling of [2 m + 1] values *)
  Definition folded (m k : nat) : R := if Nat.eqb k 0 then kw c 0 else (kw c k + kw c (2 * m + 1 - k)) / 2.
  Definition upsampled (m : nat) (g : nat -> R) (i : nat) : R :=
    let nx := (2 * m + 1)%nat in
    let X := dft nx (fun j => cr (g j)) in
    / INR nx * (folded m 0 * re (X 0%nat) +
      sumR m (fun k => 2 * folded m (S k) * re (X (S k) * cis (2 * PI * INR (S k) * INR i / INR (nx * ups c)))%cx)).

  (** [argmax]: first largest entry *)
  Fixpoint argmax_from (best : nat) (v : R) (i : nat) (l : list R) : nat :=
    match l with
    | [] => best
    | x :: l' => if Rlt_dec v x then argmax_from i x (S i) l' else argmax_from best v (S i) l'
    end.
  Definition argmax (l : list R) : nat := match l with [] => O | x :: l' => argmax_from 0 x 1 l' end.
  (** 284-294, 327-337: position of the largest entry of a list, refined by a parabola
      unless it is at an end; with the information whether it is inside *)
  Definition peak (l : list R) : res (R * bool) :=
    let i := argmax l in
    if Nat.eqb i 0 || Nat.eqb i (length l - 1) then Ok (INR i, false)
    else
      let y j := nth j l 0 in
      let den := 2 * y i - y (i + 1)%nat - y (i - 1)%nat in
      if Req_EM_T den 0 then Err ZeroDivisionError
      else Ok (INR i + (y (i + 1)%nat - y (i - 1)%nat) / 2 / den, true).

  (** 280-298: the offset in ppm *)
  Definition sro_of (g : nat -> R) : res R :=
    do r <- peak (map (upsampled lambda g) (seq 0 ((2 * lambda + 1) * ups c)));
    Ok ((- INR lambda + fst r / INR (ups c)) / INR b_samples * 10 ^ 6).

  (** 305-308: removal of the shift of [t] samples accumulated so far *)
  Definition unshift (t : R) (X : nat -> cx) (k : nat) : cx := (X k * cis (2 * PI / INR size * t * INR k))%cx.
  (** 325-339 *)
  Definition sto_of (tdoa : R) (g : nat -> R) : res R :=
    do r <- peak (map (fun j => Rabs (g j)) (seq 0 (2 * upsilon + 1)));
    Ok (fst r - INR upsilon + (if snd r then tdoa * INR (fs c) else 0)).

  (** 230-345 *)
  Definition update (x1 x2 : nat -> R) (tdoa : R) (s : state) : res state :=
    let g1 := average (started s) (alpha1 c) (gcsd1 s) (phat x1 x2) in
    let ct := tl (cont s) ++ [g1] in
    if Nat.ltb (ell s) ell_corr then Ok (mkSt (S (ell s)) true g1 ct (gcsd2 s) (gccf1 s) (sro s) (sto s))
    else if Nat.leb (half c) lambda then Err IndexError
    else
      let act2 k := (last ct zeros k * conj (hd zeros ct k))%cx in
      let g2 := mask (average (started s) (alpha2 c) (gcsd2 s) act2) in
      if Nat.ltb (ell s) ell_est then Ok (mkSt (S (ell s)) true g1 ct g2 (gccf1 s) (sro s) (sto s))
      else
        do o <- sro_of (correlation lambda g2);
        let t := o / 10 ^ 6 * INR (shift c) * (INR (ell s) - 1) in
        let comp := correlation upsilon (mask (unshift t g1)) in
        let cc j := if started s then alpha3 c * gccf1 s j + (1 - alpha3 c) * comp j else comp j in
        do d <- sto_of tdoa cc;
        Ok (mkSt (S (ell s)) true g1 ct g2 cc o d).

  (** successive updates, each with the two input buffers *)
  Fixpoint updates (tdoa : R) (s : state) (bufs : list ((nat -> R) * (nat -> R))) : res state :=
    match bufs with
    | [] => Ok s
    | b :: bufs' => do s' <- update (fst b) (snd b) tdoa s; updates tdoa s' bufs'
    end.
End Estimator.
