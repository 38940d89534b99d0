(** Model of the simulation of sampling-rate offsets (siggen/utils.py). *)
From Verif Require Import Base Level.
From Coq Require Import Reals.
Local Open Scope R_scope.

(** [np.linspace(a, b, n)] *)
Definition linspace (a b : R) (n : nat) : list R :=
  match n with
  | 0%nat => []
  | 1%nat => [a]
  | _ => map (fun k => a + INR k * ((b - a) / (INR n - 1))) (seq 0 n)
  end.
Section Resample.
(** [resampy.core.resample(x, fs, fs')]: any function, or an error *)
Context (resample : list R -> R -> R -> res (list R)).
(** 1579-1622 [resample_for_sro]: signal, time stamps and sampling rate *)
Definition resample_for_sro (x : list R) (fs ppm : R) : res (list R * list R * R) :=
  let fs' := fs * (1 + ppm / 1000000) in
  do xr <- (if Req_EM_T fs fs' then Ok x else resample x fs fs');
  let t := map (fun n => INR n / fs') (seq 0 (length xr)) in
  if (length x <=? length xr)%nat then Ok (firstn (length x) xr, firstn (length x) t, fs')
  else
    do t1 <- get t 1;
    do t0 <- get t 0;
    let dt := t1 - t0 in
    do last <- get t (length t - 1);
    let miss := (length x - length xr)%nat in
    let tadd := linspace (last + dt) (last + dt * INR miss) miss in
    Ok (xr ++ repeat 0 miss, t ++ tadd, fs').
(** 1434-1470 [apply_asynchronicity_at_node]: one column after the other; [t] and the
    rate of the last; none without a sensor.  The [N x M] array is the list of columns.
    Assigning a column of another length than [N] cannot happen (C56). *)
Fixpoint apply_async (cols : list (list R)) (fs ppm : R) : res (list (list R) * option (list R * R)) :=
  match cols with
  | [] => Ok ([], None)
  | x :: r =>
      do p <- resample_for_sro x fs ppm;
      let '(x', t, f) := p in
      do q <- apply_async r fs ppm;
      let '(r', last) := q in
      Ok (x' :: r', match last with Some l => Some l | None => Some (t, f) end)
  end.
Definition apply_asynchronicity_at_node (cols : list (list R)) (fs ppm : R) : res (list (list R) * list R * R) :=
  do p <- apply_async cols fs ppm;
  match p with (c, Some (t, f)) => Ok (c, t, f) | (_, None) => Err UnboundLocalError end.

(** ** The signals of one node in build_wasn *)
(** two-dimensional arrays as lists of columns *)
Definition madd (a b : list (list R)) : list (list R) := map (fun p => vadd (fst p) (snd p)) (combine a b).
Record node_sigs := mkNS {
  ns_data : list (list R); ns_data0 : list (list R);   (* data, data_noSRO *)
  ns_clean : list (list R); ns_clean0 : list (list R); (* cleanspeech, cleanspeech_noSRO *)
  ns_noise : list (list R); ns_noise0 : list (list R); (* cleannoise, cleannoise_noSRO *)
  ns_t : list R; ns_fs : R
}.
(** 1282-1289: self-noise on every sensor; [draws] are the white noises drawn by
    [apply_self_noise] *)
Definition self_noise (sigs draws : list (list R)) (snr : R) : list (list R * list R) :=
  map (fun p => apply_noise (fst p) (snd p) snr) (combine sigs draws).
(** 1212-1219 and 1263-1331, for one node.  [speech], [noise]: wet signals of the node's
    sensors, [noise = None] without localised noise sources ([nNoiseSources = 0]);
    [diffuse]: its diffuse noise, if asked.  [draws], [draws0]: random numbers for the
    two self-noises.  That [noiseOnlyWithoutAsync] is a view of the caller's array, so
    that the diffuse noise is also added to the caller's noise signals, is not
    represented. *)
Definition node_signals (speech : list (list R)) (noise diffuse : option (list (list R))) (draws draws0 : list (list R)) (snr fs ppm : R) : res node_sigs :=
  let mix := match noise with Some n => madd n speech | None => speech end in
  do a <- apply_asynchronicity_at_node mix fs ppm;
  let '(s, t, f) := a in
  let s := match diffuse with Some d => madd s d | None => s end in
  let s0 := match diffuse with Some d => madd mix d | None => mix end in
  let sn := self_noise s draws snr in
  let sn0 := self_noise s0 draws0 snr in
  do ref <- get (map snd sn) 0;
  do b <- apply_asynchronicity_at_node speech fs ppm;
  let '(clean, _, _) := b in
  let no := match noise with Some n => n | None => map (map (fun _ => 0)) clean end in
  let no := match diffuse with Some d => madd no d | None => no end in
  do c <- apply_asynchronicity_at_node no fs ppm;
  let '(nz, _, _) := c in
  Ok (mkNS (map fst sn) (map fst sn0) clean speech (map (fun x => vadd x ref) nz) (map (fun x => vadd x ref) no) t f).
End Resample.
