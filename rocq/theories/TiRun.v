(** Model of a complete online run of topology-independent DANSE:
    danse_toolbox/d_core.py 174-225 and d_classes.py 2785-2853, 2920-3005, 3071-3270, with
    the parts modelled in InNet.v (in-network sum), Filt.v and Scm.v (correlation matrices
    and filters), Ext.v (external filters) and Online.v (spectra, output).

    Restrictions: centralised and single-sensor estimates are not computed; filters are not
    pre-given; no compensation of sampling-rate offsets (the estimate used for it, line
    2865, is zero throughout: nothing calls [estimate_local_clock_drift]).  A division by
    zero, which gives nan or infinities in numpy, stops the model with
    [ZeroDivisionError]. *)
From Verif Require Import Base Sched Buffers Chunk Level Cx Wola Dist Online Filt Scm Ext Full InNet.
From Coq Require Import Reals.
Local Open Scope R_scope.

(** Settings: as for runs in fully connected networks (Full.v), and the number of ticks of
    the common clock in one second. *)
Record tcfg := mkTC { tc_a : acfg; tc_sec : Z }.

(** Variables of a node: matrices and filters; external filters; output and local output;
    [wIR], [lastTDfilterUp], [lastBroadcastInstant]; [lastNormFactGkUpdate] (one variable in
    the code, which only node 0 reads and writes). *)
Record tnode := mkTN { tn_f : fnode tens coefs; tn_x : xst; tn_d : list R; tn_dl : list R;
  tn_wir : list (list R); tn_up : Z; tn_last : Z; tn_norm : Z }.
Record tst := mkTS { ts_net : net; ts_nodes : list tnode }.

Definition tc_o (c : tcfg) : ocfg := ac_o (tc_a c).
Definition tc_N (c : tcfg) : nat := Z.to_nat (p_N (o_p (tc_o c))).
Definition tc_Ns (c : tcfg) : nat := Z.to_nat (p_Ns (o_p (tc_o c))).
Definition tc_bins (c : tcfg) : nat := (tc_N c / 2 + 1)%nat.

(** is the coefficient of channel [ch] zero in one of the bins? *)
Definition zero_bin (nb ch : nat) (w : coefs) : bool :=
  existsb (fun f => if Req_EM_T (re (w f ch)) 0 then if Req_EM_T (im (w f ch)) 0 then true else false else false) (seq 0 nb).
(** [w[:, ch]] divided by [g], bin by bin *)
Definition div_channel (ch : nat) (g : nat -> cx) (w : coefs) : coefs :=
  fun f c => if Nat.eqb c ch then (w f c * cinv (g f))%cx else w f c.

(** d_classes.py 3166-3175: fusion vector of a node with [m] sensors; the coefficient of
    the in-network sum has index [m]. *)
Definition fusion_vector (nb m : nat) (started : bool) (w : coefs) : res (list (list cx)) :=
  if started then
    if zero_bin nb m w then Err ZeroDivisionError
    else Ok (to_list m nb (fun f c => w f c * cinv (w f m))%cx)
  else Ok (to_list m nb w).

(** d_classes.py 2785-2853 [ti_fusion]: the new contents of [zLocalPrimeBuffer[k]], given
    its contents [buf]; [None] when there are not enough local samples. *)
Definition ti_fusion (c : tcfg) (y : list (list (list R))) (t : Z) (k : nat) (buf : list R) (nd : tnode) : res (option (list R) * tnode) :=
  let o := tc_o c in
  let p := o_p o in
  do sn <- get (o_nodes o) k;
  do yk <- get y k;
  do fr <- mapM (fun col => local_chunk_for_broadcast 0 col t (period sn) (p_N p)) yk;
  let cols := chunk_cols fr in
  if existsb (fun col => (Z.of_nat (length col) <? p_N p)%Z) cols then Ok (None, nd)
  else
    do w <- get (x_ext (tn_x nd)) (x_i (tn_x nd));
    if p_whole p then
      do v <- fusion_vector (tc_bins c) (length yk) (e_start (fn_danse (tn_f nd))) w;
      do z <- compress_whole_chunk (tc_N c) (tc_Ns c) (o_h o) (o_f o) v cols buf;
      Ok (Some (snd z), nd)
    else
      (** 2837-2853 and 3210-3269: the filter is not divided by the last coefficient *)
      let due := (o_every o <=? Z.abs (t - tn_up nd))%Z in
      do wir <- (if due && negb (o_nofuse o && Nat.eqb (length yk) 1)
                 then dist_fct_approx (o_h o) (o_f o) (tc_Ns c) (to_list (S (length yk)) (tc_bins c) w) else Ok (tn_wir nd));
      let currL := if p_efficient p then efficient_size (p_L p) (stamps sn) (tn_last nd) t else p_L p in
      do z <- compress_few_samples (2 * tc_N c - 1) wir cols (Z.to_nat currL);
      Ok (Some z, mkTN (tn_f nd) (tn_x nd) (tn_d nd) (tn_dl nd) wir (if due then t else tn_up nd)
                       (if p_efficient p then t else tn_last nd) (tn_norm nd)).

(** d_classes.py 2995-3005 [normalize_filter_coeff] ([normFactGkUpdateEvery] is 0).  Line 3002
    makes [normFactGk] a view of the coefficients that line 3005 divides by it; numpy computes
    every quotient from the values before the division. *)
Definition normalise (c : tcfg) (k : nat) (t : Z) (byp : bool) (m i : nat) (n : fnode tens coefs) (last : Z) : res (fnode tens coefs * Z) :=
  if p_seq (o_p (tc_o c)) && Nat.eqb k 0 && negb byp && (last <=? t)%Z then
    let e := fn_danse n in
    do w <- get (e_w e) (S i);
    if zero_bin (tc_bins c) m w then Err ZeroDivisionError
    else
      let w' := div_channel m (fun f => w f m) w in
      Ok (mkFN (fn_i n) (fn_yy n) (fn_nn n) (mkE (e_ryy e) (e_rnn e) (e_start e) (upd (S i) w' (e_w e)) (e_ups e) (e_dim e))
               (fn_local n) (fn_centr n) (fn_ssbc n), t)
  else Ok (n, last).

(** d_classes.py 2920-2993 [ti_update_and_estimate] with 3071-3129 [ti_build_ytilde];
    [em] is [etaMk[k]]. *)
Definition ti_update (c : tcfg) (y : list (list (list R))) (t : Z) (k : nat) (byp : bool) (em : list R) (nd : tnode) : res tnode :=
  let a := tc_a c in
  let o := tc_o c in
  let p := o_p o in
  let i := fn_i (tn_f nd) in
  do sn <- get (o_nodes o) k;
  do yk <- get y k;
  do fr <- mapM (fun col => local_chunk_for_update 0 col t (period sn) (p_whole p) (p_N p) (p_Ns p)) yk;
  do be <- match fr with [] => Err IndexError | r :: _ => Ok (snd (fst r), snd r) end;
  let ytd := chunk_cols fr in
  let cols := ytd ++ [em] in
  if existsb (fun col => negb (Z.of_nat (length col) =? p_N p)%Z) cols then Err ValueError
  else
    let yhat := spectra (tc_N c) (tc_Ns c) (o_h o) cols in
    do vk <- get (ac_vad a) k;
    do v <- get vk i;
    do n1 <- filt_step outer (avg (ac_beta a k)) (ac_valid a) (ac_solve a) (ac_p a) (tn_f nd)
               (mkU t (length cols, bins yhat) (length yk, bins yhat) (0%nat, no_coefs) (0%nat, no_coefs) v false byp false false);
    do n2 <- normalise c k t byp (length yk) i n1 (tn_norm nd);
    do w <- get (e_w (fn_danse (fst n2))) (S i);
    do x <- ext_update (ac_x a k) w (Some (IZR t)) (tn_x nd);
    do d <- estimate o (to_list (length cols) (tc_bins c) w) yhat (length cols) ytd (fst be) (snd be) (tn_d nd);
    do dl <- match fn_local (fst n2) with
             | None => Ok (tn_dl nd)
             | Some e => do wl <- get (e_w e) (S i);
                 estimate o (to_list (length yk) (tc_bins c) wl) (map (firstn (length yk)) yhat) (length yk) ytd (fst be) (snd be) (tn_dl nd)
             end;
    Ok (mkTN (fst n2) x d dl (tn_wir nd) (tn_up nd) (tn_last nd) (snd n2)).

(** d_core.py 191-225: one event with its bypass mark, which is looked up for every event
    (line 198). *)
Definition ti_full_event (c : tcfg) (y : list (list (list R))) (trees : list otree) (t : Z) (s : tst) (e : (nat * evtype) * option bool) : res tst :=
  let k := fst (fst e) in
  match snd e with
  | None => Err IndexError
  | Some byp =>
    match snd (fst e) with
    | Tr => do n <- ti_new_tree trees (ts_net s); Ok (mkTS n (ts_nodes s))
    | Fu => do nd <- get (ts_nodes s) k;
            do buf <- get (zpb (ts_net s)) k;
            do r <- ti_fusion c y t k buf nd;
            do n <- ti_fuse (fun _ => fst r) k (ts_net s);
            Ok (mkTS n (upd k (snd r) (ts_nodes s)))
    | Bc => do n <- ti_partial_sum (tc_N c) (tc_Ns c) k (ts_net s); Ok (mkTS n (ts_nodes s))
    | Re => do n <- ti_relay k (ts_net s); Ok (mkTS n (ts_nodes s))
    | Up => do nd <- get (ts_nodes s) k;
            do em <- get (etamk (ts_net s)) k;
            do nd' <- ti_update c y t k byp em nd;
            Ok (mkTS (ts_net s) (upd k nd' (ts_nodes s)))
    end
  end.
(** the events of an instant with their marks *)
Definition marks (i : Sched.instant) : list ((nat * evtype) * option bool) :=
  combine (in_evs i) (map Some (in_byp i) ++ repeat None (length (in_evs i))).
Definition ti_full_instant (c : tcfg) y trees (s : tst) (i : Sched.instant) : res tst :=
  foldM (ti_full_event c y trees (in_t i)) (marks i) s.
(** d_core.py 174-225. *)
Definition ti_full_run (c : tcfg) y trees (sched : list Sched.instant) (s : tst) : res tst :=
  foldM (ti_full_instant c y trees) sched s.
(** d_classes.py 652-710, 818-832, 2753-2757: a node at the start, given its initial filters
    and matrices, external filters, output signals and time-domain filters. *)
Definition ti_node0 (c : tcfg) (f : fnode tens coefs) (x : xst) (d dl : list R) (wir : list (list R)) : tnode :=
  mkTN f x d dl wir 0 0 (tc_sec c).
(** d_classes.py 2736-2752: start of a run. *)
Definition ti_start (c : tcfg) (nodes : list tnode) : tst := mkTS (net0 (tc_N c) (length nodes)) nodes.
