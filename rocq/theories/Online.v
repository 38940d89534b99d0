(** Model of a complete online DANSE run with given filter coefficients:
    danse_toolbox/d_core.py 62-84, d_classes.py 1043-1128, 1252-1359, 1893-1997,
    2578-2594, 2623-2709 and d_base.py 2027-2100; the run on the mixture and the
    runs of [generate_signals_for_snr_computation] (d_core.py 550-599) differ only
    in the sensor signals.

    The coefficients are those of the finished run (d_classes.py 1338-1352): index
    0 is the initialisation, which depends on the parameters only.  Estimates of
    sampling-rate offsets are given (oracle values, or none).  Signals, filters and
    compressed frames are given column by column (channel by channel).  Samples of
    the stored signals have any type [A] so that the exchange of samples can be
    stated once. *)
From Verif Require Import Base Sched Buffers Chunk Level Cx Wola Dist SroComp.
From Coq Require Import Reals.
Local Open Scope R_scope.

Record ocfg := mkO {
  o_p : sparams;
  o_nodes : list snode;
  o_h : list R;                           (* winWOLAanalysis *)
  o_f : list R;                           (* winWOLAsynthesis *)
  o_wola : bool;                          (* desSigProcessingType: 'wola' or 'conv' *)
  o_comp : bool;                          (* compensateSROs *)
  o_fsd : bool;                           (* includeFSDflags *)
  o_every : Z;                            (* upTDfilterEvery, on the common clock *)
  o_nofuse : bool;                        (* noFusionAtSingleSensorNodes *)
  o_ext : nat -> nat -> list (list cx);   (* wTildeExt: node, iteration *)
  o_int : nat -> nat -> list (list cx);   (* wTilde *)
  o_loc : nat -> nat -> list (list cx);   (* wLocal *)
  o_est : nat -> nat -> list R            (* SROsEstimates *)
}.

(** [A]: type of the samples that depend on the sensor signals. *)
Record ostate (A : Type) := mkOS {
  os_b : bstate A;                  (* buffers, frames received, iteration indices *)
  os_zl : list (list A);            (* zLocal *)
  os_wir : list (list (list R));    (* wIR *)
  os_up : list Z;                   (* lastTDfilterUp *)
  os_psf : list (list R);           (* phaseShiftFactors *)
  os_d : list (list A);             (* d, node by node *)
  os_dl : list (list A)             (* dLocal *)
}.
Arguments mkOS {A}. Arguments os_b {A}. Arguments os_zl {A}. Arguments os_wir {A}.
Arguments os_up {A}. Arguments os_psf {A}. Arguments os_d {A}. Arguments os_dl {A}.

(** numpy slice assignment [d[a:b] = new] for [new] as long as the slice. *)
Definition splice {A} (a b : Z) (new d : list A) : list A :=
  let lo := py_bound (length d) a in
  firstn lo d ++ new ++ skipn (Nat.max lo (py_bound (length d) b)) d.

(** d_base.py 2071-2082 and d_classes.py 2643-2655: WOLA estimate of one node,
    added to the samples [beg:end] of its signal.  [w] channel by channel, [yhat] bin
    by bin. *)
Definition wola_estimate (Ns : nat) (f : list R) (w yhat : list (list cx)) (b e : Z) (d : list R) : res (list R) :=
  let dhat := map (fun p => csum (length w) (fun c => (conj (nth (fst p) (nth c w []) czero) * nth c (snd p) czero)%cx))
                  (combine (seq 0 (length yhat)) yhat) in
  do t <- back_to_time_domain dhat (length f);
  let cur := map (fun j => sqrt (INR Ns) * nth j f 0 * re (nth j (snd t) czero)) (seq 0 (length f)) in
  let old := py_slice b e d in
  do a <- fit (length old) (if (length old <? length f)%nat then py_from (- Z.of_nat (length old)) cur else cur);
  Ok (splice b e (vadd old a) d).

(** d_base.py 2084-2098 and d_classes.py 2656-2657: estimate by linear convolution of
    the local channels. *)
Definition conv_estimate (Ns : nat) (f : list R) (w : list (list cx)) (ytd : list (list R)) (e : Z) (d : list R) : res (list R) :=
  do wIR <- dist_fct_approx f f Ns w;
  let ids := map (fun i => (Z.of_nat (2 * length f - 1) - Z.of_nat Ns + Z.of_nat i)%Z) (seq 0 Ns) in
  do cols <- mapM (fun m => do a <- get wIR m; do y <- get ytd m; extract_few_samples ids a y) (seq 0 (length ytd));
  let new := map (fun i => fold_right Rplus 0 (map (fun c => nth i c 0) cols)) (seq 0 Ns) in
  let lo := (e - Z.of_nat Ns)%Z in
  do a <- fit (length (py_slice lo e d)) new;
  Ok (splice lo e a d).

(** d_base.py 2027-2100 [get_desired_sig_chunk] and the write into the output.  The
    product of line 2073 needs as many filter channels as signal channels. *)
Definition estimate (c : ocfg) (w yhat : list (list cx)) (nch : nat) (ytd : list (list R)) (b e : Z) (d : list R) : res (list R) :=
  let Ns := Z.to_nat (p_Ns (o_p c)) in
  if o_wola c then
    if negb (Nat.eqb (length w) nch) then Err ValueError else wola_estimate Ns (o_f c) w yhat b e d
  else conv_estimate Ns (o_f c) w ytd e d.

(** d_classes.py 1926-1934: windowed spectra, bin by bin. *)
Definition spectra (N Ns : nat) (h : list R) (cols : list (list R)) : list (list cx) :=
  map (fun b => map (fun col => (dft N (fun m => cr (nth m col 0 * nth m h 0)) b * cr (/ sqrt (INR Ns)))%cx) cols)
      (seq 0 (N / 2 + 1)).

Definition chunk_cols (fr : list (list R * Z * Z)) : list (list R) := map (fun r => fst (fst r)) fr.

(** d_classes.py 1043-1128 [broadcast]: local block, compression, exchange. *)
Definition online_broadcast (c : ocfg) (y : list (list (list R))) (t : Z) (k : nat) (st : ostate R) : res (ostate R) :=
  let p := o_p c in
  do nd <- get (o_nodes c) k;
  do yk <- get y k;
  do fr <- mapM (fun col => local_chunk_for_broadcast 0 col t (period nd) (p_N p)) yk;
  let cols := chunk_cols fr in
  if existsb (fun col => (Z.of_nat (length col) <? p_N p)%Z) cols then Err UnboundLocalError
  else
    do ik <- get (b_i (os_b st)) k;
    if p_whole p then
      do prev <- get (os_zl st) k;
      do z <- compress_whole_chunk (Z.to_nat (p_N p)) (Z.to_nat (p_Ns p)) (o_h c) (o_f c) (o_ext c k ik) cols prev;
      do b <- broadcast p (o_nodes c) (fun _ _ _ => snd z) t k (os_b st);
      Ok (mkOS b (upd k (snd z) (os_zl st)) (os_wir st) (os_up st) (os_psf st) (os_d st) (os_dl st))
    else
      do lup <- get (os_up st) k;
      do wir <- get (os_wir st) k;
      let due := (o_every c <=? Z.abs (t - lup))%Z in
      do wir' <- (if due && negb (o_nofuse c && Nat.eqb (length yk) 1)
                  then dist_fct_approx (o_h c) (o_f c) (Z.to_nat (p_Ns p)) (o_ext c k ik) else Ok wir);
      do lst <- get (b_last (os_b st)) k;
      let currL := if p_efficient p then efficient_size (p_L p) (stamps nd) lst t else p_L p in
      do z <- compress_few_samples (2 * Z.to_nat (p_N p) - 1) wir' cols (Z.to_nat currL);
      do b <- broadcast p (o_nodes c) (fun _ _ _ => z) t k (os_b st);
      Ok (mkOS b (upd k z (os_zl st)) (upd k wir' (os_wir st)) (if due then upd k t (os_up st) else os_up st)
               (os_psf st) (os_d st) (os_dl st)).

(** d_classes.py 1252-1330 [update_and_estimate] with given filters.  A node has at
    least one sensor.  With compensation, line 1990 reads the loop variable of an empty
    loop if node 0 has no neighbour. *)
Definition online_update (c : ocfg) (y : list (list (list R))) (t : Z) (k : nat) (st : ostate R) : res (ostate R) :=
  let p := o_p c in
  do nd <- get (o_nodes c) k;
  do yk <- get y k;
  do ik <- get (b_i (os_b st)) k;
  do b' <- read_buffers 0 (map nbrs (o_nodes c)) (p_N p) (p_Ns p) k (os_b st);
  do fr <- mapM (fun col => local_chunk_for_update 0 col t (period nd) (p_whole p) (p_N p) (p_Ns p)) yk;
  do be <- match fr with [] => Err IndexError | r :: _ => Ok (snd (fst r), snd r) end;
  let ytd := chunk_cols fr in
  do zk <- get (b_z b') k;
  let cols := ytd ++ zk in
  if existsb (fun col => negb (Z.of_nat (length col) =? p_N p)%Z) cols then Err ValueError
  else
    let yhat := spectra (Z.to_nat (p_N p)) (Z.to_nat (p_Ns p)) (o_h c) cols in
    do psf <- get (os_psf st) k;
    if o_comp c && Nat.eqb k 0 && Nat.eqb (length (nbrs nd)) 0 then Err UnboundLocalError
    else
      let flags := map (fun f => Some (IZR f)) (snd (List.last (b_log b') (k, []))) in
      do x <- extra_shifts (length psf) (length yk) flags;
      let psf1 := if o_comp c && o_fsd c then vadd psf x else psf in
      do psf2 <- (if o_comp c then move_shifts (length yk) (IZR (p_Ns p)) (o_est c k ik) psf1 else Ok psf1);
      let ycomp := if o_comp c then apply_shifts (Z.to_nat (p_N p)) psf1 yhat else yhat in
      do d <- get (os_d st) k;
      do d' <- estimate c (o_int c k (S ik)) ycomp (length cols) ytd (fst be) (snd be) d;
      do dl <- get (os_dl st) k;
      do dl' <- estimate c (o_loc c k (S ik)) (map (firstn (length yk)) yhat) (length yk) ytd (fst be) (snd be) dl;
      Ok (mkOS b' (os_zl st) (os_wir st) (os_up st) (upd k psf2 (os_psf st)) (upd k d' (os_d st)) (upd k dl' (os_dl st))).

(** d_core.py 71-84. *)
Definition online_event (c : ocfg) (y : list (list (list R))) (st : ostate R) (te : Z * (nat * evtype)) : res (ostate R) :=
  match snd (snd te) with
  | Bc => online_broadcast c y (fst te) (fst (snd te)) st
  | Up => online_update c y (fst te) (fst (snd te)) st
  | _ => Err ValueError
  end.
(** The events of a schedule in the order of processing. *)
Definition flat_events (sched : list instant) : list (Z * (nat * evtype)) :=
  flat_map (fun i => map (fun e => (in_t i, e)) (in_evs i)) sched.
Definition online_run (c : ocfg) (y : list (list (list R))) (sched : list instant) (st : ostate R) : res (ostate R) :=
  foldM (online_event c y) (flat_events sched) st.

(** d_classes.py 596, 659-663, 792-796, 831: initial state; [T] samples of output per
    node, [ref] the reference sensor. *)
Definition online_init {A} (zero : A) (c : ocfg) (nsens : list nat) (ref T : nat) : ostate A :=
  let n := Z.to_nat (p_N (o_p c)) in
  mkOS (init_state A (o_nodes c)) (map (fun _ => []) (o_nodes c))
       (map (fun m => map (fun s => if Nat.eqb s ref then upd n 1 (repeat 0 (2 * n - 1)) else repeat 0 (2 * n - 1)) (seq 0 m)) nsens)
       (map (fun _ => 0%Z) (o_nodes c))
       (map (fun p => repeat 0 (fst p + length (nbrs (snd p)))) (combine nsens (o_nodes c)))
       (map (fun _ => repeat zero T) (o_nodes c))
       (map (fun _ => repeat zero T) (o_nodes c)).
