(** Model of the correlation matrix and filter updates of one node:
    danse_toolbox/d_classes.py 1252-1330 (the part between the construction of
    the observation vectors and the SRO estimation), 1430-1540, 2048-2267 and
    2290-2362, for [simType = 'online'] and without pre-given filters.  The
    matrices, the rank/definiteness checks and the filter formula are parameters
    (instantiated in Scm.v); printing and condition numbers are left out. *)
From Verif Require Import Base Buffers.
Set Implicit Arguments.
Open Scope nat_scope.

Section Filt.
  (** frames (all frequencies), correlation matrices, filters *)
  Variables Fr M W : Type.
  (** line 2084: the outer product [yyH]; lines 2086, 2088: exponential averaging. *)
  Variable outer : Fr -> M.
  Variable avg : M -> M -> M.
  (** 1460-1480: full-rank (and definiteness) checks of noise and speech matrix,
      given their size. *)
  Variable valid : nat -> M -> M -> bool.
  (** 2303-2308: the filter update function, given the size of the matrices. *)
  Variable solve : nat -> M -> M -> W.

  (** Settings: [batch_estimates] initialisation, [startUpdatesAfterAtLeast],
      [use1stFrameAsBasis], [bypassUpdates]. *)
  Record fparams := mkF { f_batch_init : bool; f_start_after : Z; f_use1st : bool; f_bypass_all : bool }.
  Variable p : fparams.

  (** One estimator (DANSE, local, centralised or single-sensor broadcast):
      matrices, enabling flag, one filter per iteration, number of updates,
      dimension of the observation vector. *)
  Record est := mkE { e_ryy : M; e_rnn : M; e_start : bool; e_w : list W; e_ups : nat; e_dim : nat }.

  (** Node: iteration index, counters of matrix updates, estimators (the last
      three are optional). *)
  Record fnode := mkFN { fn_i : nat; fn_yy : nat; fn_nn : nat;
    fn_danse : est; fn_local : option est; fn_centr : option est; fn_ssbc : option est }.

  (** An update event: time, the frames, the VAD of the frame at the node and of
      the centralised signals, bypass flag of the schedule, and the two results of
      [compensate_sros]. *)
  Record uevent := mkU { u_t : Z; u_y : Fr; u_yl : Fr; u_yc : Fr; u_ys : Fr;
    u_vad : bool; u_cvad : bool; u_bypass : bool; u_skip : bool; u_skipc : bool }.

  (** 2057-2089 with 2203-2267: new matrices of one estimator; [nyy], [nnn] are the
      node's counters, already incremented for this frame. *)
  Definition scm_update (nyy nnn : nat) (vad : bool) (y : Fr) (e : est) : est :=
    let yyH := outer y in
    let ryyC := if vad then avg (e_ryy e) yyH else e_ryy e in
    let rnnC := if vad then e_rnn e else avg (e_rnn e) yyH in
    let (ryy, rnn) :=
      if f_use1st p then
        ((if Nat.eqb nyy 1 && vad then yyH else if Nat.ltb 1 nyy then ryyC else e_ryy e),
         (if Nat.eqb nnn 1 && negb vad then yyH else if Nat.ltb 1 nnn then rnnC else e_rnn e))
      else (ryyC, rnnC) in
    mkE ryy rnn (e_start e) (e_w e) (e_ups e) (e_dim e).

  (** 1482-1531: enabling of one estimator. *)
  Definition check_covmats (nyy nnn : nat) (t : Z) (e : est) : est :=
    let start :=
      if f_batch_init p then true
      else if negb (e_start e) && (f_start_after p <=? t)%Z then
        Nat.ltb (e_dim e) nyy && Nat.ltb (e_dim e) nnn && valid (e_dim e) (e_rnn e) (e_ryy e)
      else e_start e in
    mkE (e_ryy e) (e_rnn e) start (e_w e) (e_ups e) (e_dim e).

  (** write of the filter of iteration [i + 1] (numpy: IndexError out of range) *)
  Definition set_w (i : nat) (w : W) (e : est) : res est :=
    if Nat.ltb (S i) (length (e_w e))
    then Ok (mkE (e_ryy e) (e_rnn e) (e_start e) (upd (S i) w (e_w e)) (e_ups e) (e_dim e))
    else Err IndexError.
  (** [w[i+1] = w[i]] *)
  Definition hold (i : nat) (e : est) : res est := do w <- get (e_w e) i; set_w i w e.
  (** 2311-2362: [perform_update] for one estimator. *)
  Definition perform (i : nat) (e : est) : res est :=
    if negb (f_bypass_all p) && e_start e then
      do e' <- set_w i (solve (e_dim e) (e_ryy e) (e_rnn e)) e;
      Ok (mkE (e_ryy e') (e_rnn e') (e_start e') (e_w e') (S (e_ups e')) (e_dim e'))
    else Ok e.
  (** 2322-2339: centralised estimator, which may be skipped. *)
  Definition perform_centr (i : nat) (skipc : bool) (e : est) : res est :=
    if negb (f_bypass_all p) && e_start e && skipc then hold i e else perform i e.

  Definition opt_map {A} (f : A -> res A) (o : option A) : res (option A) :=
    match o with None => Ok None | Some a => do b <- f a; Ok (Some b) end.

  (** 1287-1330 [update_and_estimate]. *)
  Definition filt_step (n : fnode) (u : uevent) : res fnode :=
    let i := fn_i n in
    let nyy := if u_vad u then S (fn_yy n) else fn_yy n in
    let nnn := if u_vad u then fn_nn n else S (fn_nn n) in
    let up vad y e := check_covmats nyy nnn (u_t u) (scm_update nyy nnn vad y e) in
    let d := up (u_vad u) (u_y u) (fn_danse n) in
    let l := option_map (up (u_vad u) (u_yl u)) (fn_local n) in
    let c := option_map (up (u_cvad u) (u_yc u)) (fn_centr n) in
    let s := option_map (up (u_vad u) (u_ys u)) (fn_ssbc n) in
    do r <-
      (if negb (u_skip u) && negb (u_bypass u) then
         do d' <- perform i d;
         do c' <- opt_map (perform_centr i (u_skipc u)) c;
         do l' <- opt_map (perform i) l;
         do s' <- opt_map (perform i) s;
         Ok (d', l', c', s')
       else
         do d' <- hold i d;
         do l' <- opt_map (hold i) l;
         if u_bypass u then
           do c' <- opt_map (hold i) c;
           do s' <- opt_map (hold i) s;
           Ok (d', l', c', s')
         else Ok (d', l', c, s));
    let '(d', l', c', s') := r in
    Ok (mkFN (S i) nyy nnn d' l' c' s').

  (** A run over the update events of the node. *)
  Definition filt_run (us : list uevent) (n : fnode) : res fnode := foldM filt_step us n.

  (** 821-824, 848-851 with [init_complex_filter] (d_base.py 2367-2414) for the
      initialisation types other than 'random': the same filter [w0] in all the
      [slots] iterations. *)
  Definition est_init (r : M) (w0 : W) (slots dim : nat) : est :=
    mkE r r false (repeat w0 slots) 0 dim.
  Definition fnode_init (d : est) (l c s : option est) : fnode := mkFN 0 0 0 d l c s.
End Filt.
