(** Model of the estimation of sampling-rate offsets from the drift of coherences for the
    centralised estimates: danse_toolbox/d_classes.py 2384-2394 and 2489-2560
    [update_sro_estimates], 2596-2621 [build_phase_shifts_for_srocomp], with the
    compensation of 1999-2038 (SroComp.v) and the estimator of CohDrift.v.

    Restrictions as in CohDrift.v. *)
From Verif Require Import Base Buffers Centr Level Cx SroComp CohDrift.
From Coq Require Import Reals.
Local Open Scope R_scope.

(** 2503-2523: coherence of two sensors, bin by bin *)
Definition cc_coherences (ik iq : nat) (y : list (list cx)) : list cx := map (fun row => coherence (nth ik row czero) (nth iq row czero)) y.

(** 2493-2540 at node [k] for node [q] at iteration [i]; [idxk] and [idxq] are the first
    sensors of the nodes. *)
Definition cc_estimate (c : cdpar) (L : Z) (Ns : R) (nsens : list nat) (k i q : nat) (st : cdst) : res (R * list cx) :=
  do avg <- get (cs_avg st) q;
  if Nat.eqb q k then Ok (0, avg)
  else if is_instant c i then
    if (i <? cd_seg c)%nat then Err ValueError
    else
      let h := if cd_closed c then cs_cmp st else cs_unc st in
      do pos <- get h i;
      do pri <- get h (i - cd_seg c);
      let fl n := if cd_closed c then 0%Z else cumulated L (cs_flags st) n q in
      let idxk := list_sum (firstn k nsens) in
      let idxq := list_sum (firstn q nsens) in
      cohdrift c Ns (cc_coherences idxk idxq pos) (cc_coherences idxk idxq pri) avg (first_instant c i)
               (fl (S i)) (fl (S (i - cd_seg c)))
  else Ok (0, avg).

(** One iteration: flags of all nodes and spectra of all sensors. *)
Definition cc_step (c : cdpar) (L : Z) (Ns : R) (N : nat) (nsens : list nat) (k : nat) (st : cdst) (x : list Z * list (list cx)) : res cdst :=
  if Nat.eqb (cd_every c) 0 then Err ZeroDivisionError
  else
    let i := length (cs_unc st) in
    let psf := vadd (cs_psf st) (extra_shifts_centr nsens k (map (fun f => Some (IZR f)) (fst x))) in
    let st1 := mkCS psf (cs_avg st) (cs_flags st ++ [fst x]) (cs_unc st ++ [snd x]) (cs_cmp st ++ [apply_shifts N psf (snd x)]) (cs_res st) (cs_est st) in
    do e <- mapM (fun q => cc_estimate c L Ns nsens k i q st1) (seq 0 (length nsens));
    let r := map fst e in
    let est := map (from_residual c) r in
    Ok (mkCS (move_shifts_centr nsens Ns est psf) (map snd e) (cs_flags st1) (cs_unc st1) (cs_cmp st1) (cs_res st ++ [r]) (cs_est st ++ [est])).
(** 588-601: initial values *)
Definition cc_init (N : nat) (nsens : list nat) : cdst := mkCS (repeat 0 (list_sum nsens)) (repeat (repeat czero N) (length nsens)) [] [] [] [] [].
Definition cc_run (c : cdpar) (L : Z) (Ns : R) (N : nat) (nsens : list nat) (k : nat) (l : list (list Z * list (list cx))) : res cdst :=
  foldM (cc_step c L Ns N nsens k) l (cc_init N nsens).
