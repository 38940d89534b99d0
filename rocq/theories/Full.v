(** Model of a complete online DANSE run in which the nodes estimate their filters:
    danse_toolbox/d_core.py 62-84 and d_classes.py 1043-1128, 1252-1330, with the parts
    modelled in Online.v (exchange of signals, spectra, output), Filt.v and Scm.v
    (correlation matrices and filters) and Ext.v (external filters).

    Restrictions: local estimates are computed ([computeLocal]), centralised and
    single-sensor estimates are not; estimates of sampling-rate offsets are given;
    filters are not pre-given (for pre-given filters see Online.v). *)
From Verif Require Import Base Sched Buffers Chunk Level Cx Wola Dist SroComp Online Filt Scm Ext.
From Coq Require Import Reals.
Local Open Scope R_scope.

Record acfg := mkAC {
  ac_o : ocfg;                               (* as in Online.v; its filters are not used *)
  ac_p : fparams;                            (* conditions for updates *)
  ac_beta : nat -> R;                        (* beta of the node *)
  ac_valid : nat -> tens -> tens -> bool;    (* checks of the matrices: size, noise, speech *)
  ac_solve : nat -> tens -> tens -> coefs;   (* filter update function *)
  ac_x : nat -> xparams;                     (* external filters of the node; times on the common clock *)
  ac_vad : list (list bool)                  (* oVADframes *)
}.

(** Signals and buffers; matrices and filters of every node; external filters of every
    node.  The iteration index [i[k]] is part of each of the three. *)
Record astate := mkAS { a_s : ostate R; a_f : list (fnode tens coefs); a_x : list xst }.

(** [nch x nbins] array, channel by channel *)
Definition to_list (nch nbins : nat) (w : coefs) : list (list cx) := map (fun c => map (fun f => w f c) (seq 0 nbins)) (seq 0 nch).
Definition no_coefs : coefs := fun _ _ => czero.

(** [wTilde[k][:, i, :]], [wLocal[k][:, i, :]], [wTildeExt[k][:, i, :]] *)
Definition int_at (fs : list (fnode tens coefs)) (k i : nat) : coefs :=
  match nth_error fs k with Some n => nth i (e_w (fn_danse n)) no_coefs | None => no_coefs end.
Definition loc_at (fs : list (fnode tens coefs)) (k i : nat) : coefs :=
  match nth_error fs k with
  | Some n => match fn_local n with Some e => nth i (e_w e) no_coefs | None => no_coefs end
  | None => no_coefs
  end.
Definition ext_at (xs : list xst) (k i : nat) : coefs :=
  match nth_error xs k with Some x => nth i (x_ext x) no_coefs | None => no_coefs end.

(** d_core.py 550-599: the settings of a run with the given filters. *)
Definition with_filters (c : acfg) (y : list (list (list R))) (fs : list (fnode tens coefs)) (xs : list xst) : ocfg :=
  let o := ac_o c in
  let nb := (Z.to_nat (p_N (o_p o)) / 2 + 1)%nat in
  let m k := length (nth k y []) in
  mkO (o_p o) (o_nodes o) (o_h o) (o_f o) (o_wola o) (o_comp o) (o_fsd o) (o_every o) (o_nofuse o)
      (fun k i => to_list (m k) nb (ext_at xs k i))
      (fun k i => to_list (m k + length (nbrs (nth k (o_nodes o) (mkNode 1 [] [])))) nb (int_at fs k i))
      (fun k i => to_list (m k) nb (loc_at fs k i))
      (o_est o).

(** spectra bin by bin, as an array *)
Definition bins (y : list (list cx)) : nat -> nat -> cx := fun f c => nth c (nth f y []) czero.

(** d_classes.py 1276-1289 and 2057-2066: the frames of an update event, compensated for
    the DANSE estimator (1990-1997), as they are for the local one (1354-1359), with the
    voice activity decision of the iteration. *)
Definition observe (c : acfg) (y : list (list (list R))) (t : Z) (k : nat) (byp : bool) (st : ostate R) : res (uevent obs) :=
  let o := ac_o c in
  let p := o_p o in
  do nd <- get (o_nodes o) k;
  do yk <- get y k;
  do ik <- get (b_i (os_b st)) k;
  do b' <- read_buffers 0 (map nbrs (o_nodes o)) (p_N p) (p_Ns p) k (os_b st);
  do fr <- mapM (fun col => local_chunk_for_update 0 col t (period nd) (p_whole p) (p_N p) (p_Ns p)) yk;
  do zk <- get (b_z b') k;
  let cols := chunk_cols fr ++ zk in
  if existsb (fun col => negb (Z.of_nat (length col) =? p_N p)%Z) cols then Err ValueError
  else
    let yhat := spectra (Z.to_nat (p_N p)) (Z.to_nat (p_Ns p)) (o_h o) cols in
    do psf <- get (os_psf st) k;
    if o_comp o && Nat.eqb k 0 && Nat.eqb (length (nbrs nd)) 0 then Err UnboundLocalError
    else
      let flags := map (fun f => Some (IZR f)) (snd (List.last (b_log b') (k, []))) in
      do x <- extra_shifts (length psf) (length yk) flags;
      let psf1 := if o_comp o && o_fsd o then vadd psf x else psf in
      let ycomp := if o_comp o then apply_shifts (Z.to_nat (p_N p)) psf1 yhat else yhat in
      do vk <- get (ac_vad c) k;
      do v <- get vk ik;
      Ok (mkU t (length cols, bins ycomp) (length yk, bins yhat) (0%nat, no_coefs) (0%nat, no_coefs) v false byp (skip_update flags) false).

(** d_classes.py 1252-1330 [update_and_estimate]. *)
Definition full_update (c : acfg) (y : list (list (list R))) (t : Z) (k : nat) (byp : bool) (a : astate) : res astate :=
  do n <- get (a_f a) k;
  do x <- get (a_x a) k;
  do u <- observe c y t k byp (a_s a);
  do n' <- filt_step outer (avg (ac_beta c k)) (ac_valid c) (ac_solve c) (ac_p c) n u;
  do w <- get (e_w (fn_danse n')) (S (fn_i n));
  do x' <- ext_update (ac_x c k) w (Some (IZR t)) x;
  let fs := upd k n' (a_f a) in
  let xs := upd k x' (a_x a) in
  do s <- online_update (with_filters c y fs xs) y t k (a_s a);
  Ok (mkAS s fs xs).

(** d_classes.py 1043-1128 [broadcast]. *)
Definition full_broadcast (c : acfg) (y : list (list (list R))) (t : Z) (k : nat) (a : astate) : res astate :=
  do s <- online_broadcast (with_filters c y (a_f a) (a_x a)) y t k (a_s a);
  Ok (mkAS s (a_f a) (a_x a)).

(** d_core.py 71-84; the bypass mark is looked up for updates only. *)
Definition full_event (c : acfg) (y : list (list (list R))) (a : astate) (e : (Z * (nat * evtype)) * option bool) : res astate :=
  let te := fst e in
  match snd (snd te) with
  | Bc => full_broadcast c y (fst te) (fst (snd te)) a
  | Up => match snd e with
          | Some byp => full_update c y (fst te) (fst (snd te)) byp a
          | None => Err IndexError
          end
  | _ => Err ValueError
  end.
(** The events of a schedule in the order of processing, with their bypass marks. *)
Definition marked_events (sched : list instant) : list ((Z * (nat * evtype)) * option bool) :=
  flat_map (fun i => combine (map (fun e => (in_t i, e)) (in_evs i)) (map Some (in_byp i) ++ repeat None (length (in_evs i)))) sched.
Definition full_run (c : acfg) (y : list (list (list R))) (sched : list instant) (a : astate) : res astate :=
  foldM (full_event c y) (marked_events sched) a.
