(** Model of the estimation of sampling-rate offsets from the drift of coherences:
    danse_toolbox/d_sros.py 19-95 [cohdrift_sro_estimation], d_classes.py 2364-2487
    [update_sro_estimates] and 2562-2594 [build_phase_shifts_for_srocomp], with the
    compensation of SroComp.v.

    Restrictions: the centralised estimates are in CohCentr.v; [compensateSROs] and
    [includeFSDflags] are set; the flags of full-sample drifts are numbers; the golden
    section search of the package paderwasn is an arbitrary function. *)
From Verif Require Import Base Buffers Level Cx SroComp.
From Coq Require Import Reals.
Local Open Scope R_scope.

Definition sq_mod (a : cx) : R := re a * re a + im a * im a.

(** [np.angle] *)
Definition angle (z : cx) : R :=
  let m := sqrt (sq_mod z) in
  if Req_EM_T m 0 then 0
  else if Rle_dec 0 (im z) then acos (re z / m) else - acos (re z / m).

(** [CohDriftParameters] (d_base.py 56-111); [cd_search] is [max_time_lag_search] for the
    method 'gs', [None] for the method 'ls'. *)
Record cdpar := mkCD {
  cd_closed : bool;                     (* loop == 'closed' *)
  cd_alpha : R;
  cd_seg : nat;                         (* segLength *)
  cd_every : nat;                       (* estEvery *)
  cd_start : nat;                       (* startAfterNups *)
  cd_eps : R;                           (* alphaEps *)
  cd_search : option (list cx -> R)
}.

Fixpoint dot (n : nat) (f g : nat -> R) : R := match n with O => 0 | S m => dot m f g + f m * g m end.

(** d_sros.py 66-72: product of the posterior and the conjugate prior, with the
    negative frequencies. *)
Definition mirror (r : list cx) : list cx := removelast r ++ removelast (rev (map conj r)).
Definition residual (wPos wPri : list cx) : list cx := mirror (map (fun p => (fst p * conj (snd p))%cx) (combine wPos wPri)).
(** 73-75: full-sample drifts *)
Definition with_drift (d : Z) (r : list cx) : list cx :=
  map (fun p => (snd p * cis (2 * PI / INR (length r) * INR (fst p) * IZR d))%cx) (combine (seq 0 (length r)) r).
(** 77-82 *)
Definition average (alpha : R) (first : bool) (avg r : list cx) : res (list cx) :=
  if first then Ok r
  else if Nat.eqb (length avg) (length r) then Ok (map (fun p => (cr alpha * fst p + cr (1 - alpha) * snd p)%cx) (combine avg r))
  else Err ValueError.
(** 88-93: least squares over [K] bins; [avgResProd_out[-K:]]. *)
Definition least_squares (K : nat) (ldNs : R) (avg : list cx) : res R :=
  if (length avg <? K)%nat then Err ValueError
  else
    let b i := PI * INR i * ldNs / (INR K * 2) in
    let v i := angle (nth (length avg - K + i) avg czero) in
    Ok (- (dot K b v / dot K b b)).
Definition cohdrift (c : cdpar) (Ns : R) (wPos wPri avg : list cx) (first : bool) (fPos fPri : Z) : res (R * list cx) :=
  if negb (Nat.eqb (length wPos) (length wPri)) then Err ValueError
  else
    do a <- average (cd_alpha c) first avg (with_drift (fPos - fPri) (residual wPos wPri));
    let ldNs := INR (cd_seg c) * Ns in
    do e <- match cd_search c with
            | Some s => Ok (- s a / ldNs)
            | None => least_squares (length wPri) ldNs a
            end;
    Ok (e, a).

(** d_classes.py 2396-2402: [i in cohDriftSROupdateIndices], and whether it is the first. *)
Definition is_instant (c : cdpar) (i : nat) : bool :=
  (cd_start c + cd_every c <=? i)%nat && Nat.eqb ((i - (cd_start c + cd_every c)) mod cd_every c) 0.
Definition first_instant (c : cdpar) (i : nat) : bool := Nat.eqb i (cd_start c + cd_every c).

(** 2424-2450: coherence of the first local sensor with channel [q], bin by bin, from the
    spectra (bins x channels) of an iteration.  A zero spectrum gives nan in numpy;
    theorems assume non-zero ones. *)
Definition coherence (a b : cx) : cx := (cr (/ sqrt (sq_mod a * sq_mod b)) * (a * conj b))%cx.
Definition coherences (q : nat) (y : list (list cx)) : list cx := map (fun row => coherence (nth 0 row czero) (nth q row czero)) y.

(** 2372-2383: flags cumulated over the first [n] iterations, times the broadcast length *)
Definition cumulated (L : Z) (flags : list (list Z)) (n q : nat) : Z := (L * fold_right Z.add 0 (map (fun f => nth q f 0) (firstn n flags)))%Z.

(** Variables of one node: phase shift factors, averaged products per neighbour, and, per
    iteration so far, flags, uncompensated and compensated spectra, residuals, estimates. *)
Record cdst := mkCS { cs_psf : list R; cs_avg : list (list cx); cs_flags : list (list Z);
                      cs_unc : list (list (list cx)); cs_cmp : list (list (list cx)); cs_res : list (list R); cs_est : list (list R) }.

(** 2411-2467 for one neighbour at iteration [i].  With [i < segLength] the code reads
    iterations at the end of the arrays, which are not filled yet (nan). *)
Definition estimate_one (c : cdpar) (L : Z) (Ns : R) (nLoc i q : nat) (st : cdst) : res (R * list cx) :=
  do avg <- get (cs_avg st) q;
  if is_instant c i then
    if (i <? cd_seg c)%nat then Err ValueError
    else
      let h := if cd_closed c then cs_cmp st else cs_unc st in
      do pos <- get h i;
      do pri <- get h (i - cd_seg c);
      let fl n := if cd_closed c then 0%Z else cumulated L (cs_flags st) n q in
      cohdrift c Ns (coherences (nLoc + q) pos) (coherences (nLoc + q) pri) avg (first_instant c i)
               (fl (S i)) (fl (S (i - cd_seg c)))
  else Ok (0, avg).

(** 2572-2584.  The arrays are filled with zeros and [+=] acts on the entry of iteration
    [i]. *)
Definition from_residual (c : cdpar) (r : R) : R := if cd_closed c then 0 + r / (1 + r) * cd_eps c else r / (1 + r).

(** One iteration: flags and spectra of the frame. *)
Definition cd_step (c : cdpar) (L : Z) (Ns : R) (N nLoc nNeigh : nat) (st : cdst) (i : list Z * list (list cx)) : res cdst :=
  if Nat.eqb (cd_every c) 0 then Err ZeroDivisionError
  else
    let n := length (cs_unc st) in
    do x <- extra_shifts (length (cs_psf st)) nLoc (map (fun f => Some (IZR f)) (fst i));
    let psf := vadd (cs_psf st) x in
    let st1 := mkCS psf (cs_avg st) (cs_flags st ++ [fst i]) (cs_unc st ++ [snd i]) (cs_cmp st ++ [apply_shifts N psf (snd i)]) (cs_res st) (cs_est st) in
    do e <- mapM (fun q => estimate_one c L Ns nLoc n q st1) (seq 0 nNeigh);
    let r := map fst e in
    let est := map (from_residual c) r in
    do psf' <- move_shifts nLoc Ns est psf;
    Ok (mkCS psf' (map snd e) (cs_flags st1) (cs_unc st1) (cs_cmp st1) (cs_res st ++ [r]) (cs_est st ++ [est])).
Definition cd_init (N nLoc nNeigh : nat) : cdst := mkCS (repeat 0 (nLoc + nNeigh)) (repeat (repeat czero N) nNeigh) [] [] [] [] [].
Definition cd_run (c : cdpar) (L : Z) (Ns : R) (N nLoc nNeigh : nat) (l : list (list Z * list (list cx))) : res cdst :=
  foldM (cd_step c L Ns N nLoc nNeigh) l (cd_init N nLoc nNeigh).
