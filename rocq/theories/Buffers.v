(** Model of the exchange of compressed signals between nodes:
    danse_toolbox/d_classes.py 1043-1250, 1361-1371, 1701-1807 and the event
    loop of danse_toolbox/d_core.py 62-84.  The compressed signals themselves
    are an arbitrary function (see [compress]); filters, correlation matrices
    and desired signal estimates are modelled elsewhere. *)
From Verif Require Import Base Sched.
Set Implicit Arguments.
Open Scope Z_scope.

(** First position of [k] in a neighbour list: d_classes.py 1210-1213
    ([idxKforNeighborQ[0]] raises IndexError if there is none). *)
Fixpoint index_of (k : nat) (l : list nat) : res nat :=
  match l with
  | [] => Err IndexError
  | x :: l' => if Nat.eqb x k then Ok O else do i <- index_of k l'; Ok (S i)
  end.

Section Buf.
  Variable A : Type.
  Variable zero : A.

  (** d_classes.py 1198-1206: part of the local compressed signal to send. *)
  Definition chunk_to_send (z : list A) (n : Z) : list A :=
    if n <? 0 then py_from n z
    else if 0 <? n then py_upto n z
    else [].

  (** zBuffer: per node, per neighbour position, the samples received. *)
  Definition buffers := list (list (list A)).

  (** d_classes.py 1208-1221: one neighbour [q] of the sender [k]. *)
  Definition fill_one (nb : list (list nat)) (k : nat) (chunk : list A)
      (bufs : buffers) (q : nat) : res buffers :=
    do nq <- get nb q;
    do idx <- index_of k nq;
    do bq <- get bufs q;
    do b <- get bq idx;
    Ok (upd q (upd idx (b ++ chunk) bq) bufs).

  Fixpoint fill_all (nb : list (list nat)) (k : nat) (chunk : list A)
      (qs : list nat) (bufs : buffers) : res buffers :=
    match qs with
    | [] => Ok bufs
    | q :: qs' => do b <- fill_one nb k chunk bufs q; fill_all nb k chunk qs' b
    end.

  (** d_classes.py 1185-1221 [fill_buffers]. *)
  Definition fill_buffers (nb : list (list nat)) (k : nat) (chunk : list A)
      (bufs : buffers) : res buffers :=
    do nk <- get nb k;
    fill_all nb k chunk nk bufs.

  (** d_base.py 1569-1614 [fill_buffers_td_few_samples]: same loop, sending the
      last [L] samples ([zLocalK[-L:]], i.e. everything when [L = 0]). *)
  Definition fill_buffers_td_few_samples (nb : list (list nat)) (k : nat)
      (z : list A) (L : Z) (bufs : buffers) : res buffers :=
    do nk <- get nb k;
    fill_all nb k (py_from (- L) z) nk bufs.

  (** d_classes.py 1733-1797: frame and flag for one neighbour.  [first]: the
      node is at its first iteration; [prev]: column of this neighbour in the
      previous [z].  Stacking the column under the [Ndft]-row matrix (1800)
      raises ValueError for any other length. *)
  Definition assemble (first : bool) (Ndft Ns : Z) (prev buf : list A)
    : res (list A * Z) :=
    let Bq := Z.of_nat (length buf) in
    let r :=
      if first then
        if Bq =? Ndft then (buf, 0)
        else if Bq <? Ndft then
          (repeat zero (Z.to_nat (Ndft - Bq)) ++ buf, -1 * Z.abs (Ndft - Bq))
        else (py_from (- Ndft) buf, Z.abs (Ndft - Bq))
      else
        let flag := if Bq =? Ns then 0
                    else if Bq <? Ns then -1 * Z.abs (Ns - Bq)
                    else Z.abs (Ns - Bq) in
        if 0 <? Ndft - Bq then (py_from (- (Ndft - Bq)) prev ++ buf, flag)
        else (buf, flag) in
    if Z.of_nat (length (fst r)) =? Ndft then Ok r else Err ValueError.

  Record bstate := mkB {
    b_buf : buffers;                 (* zBuffer *)
    b_z : list (list (list A));      (* z: columns of the last frame *)
    b_i : list nat;                  (* iteration index per node *)
    b_last : list Z;                 (* lastBroadcastInstant *)
    b_log : list (nat * list Z)      (* rows written to bufferFlags, in order *)
  }.

  (** d_classes.py 1701-1804 [process_incoming_signals_buffers], followed by
      [wipe_buffers] (1361-1364) and the increment of the iteration index
      (1330), as in [update_and_estimate] (1276-1277, 1330). *)
  Definition read_buffers (nb : list (list nat)) (Ndft Ns : Z) (k : nat)
      (st : bstate) : res bstate :=
    do nk <- get nb k;
    do bk <- get (b_buf st) k;
    do zk <- get (b_z st) k;
    do ik <- get (b_i st) k;
    do cols <- mapM (fun idx =>
        do b <- get bk idx;
        do pz <- (if Nat.eqb ik 0 || negb (0 <? Ndft - Z.of_nat (length b))
                  then Ok [] else get zk idx);
        assemble (Nat.eqb ik 0) Ndft Ns pz b) (seq 0 (length nk));
    Ok (mkB (upd k (map (fun _ => []) nk) (b_buf st))
            (upd k (map fst cols) (b_z st))
            (upd k (S ik) (b_i st))
            (b_last st)
            (b_log st ++ [(k, map snd cols)])).

  (** d_classes.py 1130-1160 [get_buffer_size_for_efficient_bc]. *)
  Definition efficient_size (L : Z) (ts : list Z) (last t : Z) : Z :=
    L * (Z.of_nat (length (filter (fun u => (last <? u) && (u <=? t)) ts)) / L).

  (** d_classes.py 1043-1128 [broadcast].  [compress k t n] is the compressed
      signal [zLocal]: of [n] samples for the few-samples scheme (1116), of
      [DFTsize] samples for the whole-chunk scheme (1073). *)
  Definition broadcast (p : sparams) (nodes : list snode)
      (compress : nat -> Z -> Z -> list A) (t : Z) (k : nat) (st : bstate)
    : res bstate :=
    do nd <- get nodes k;
    let nb := map nbrs nodes in
    if p_whole p then
      do bufs <- fill_buffers nb k
                   (chunk_to_send (compress k t (p_N p)) (p_Ns p)) (b_buf st);
      Ok (mkB bufs (b_z st) (b_i st) (b_last st) (b_log st))
    else
      do last <- get (b_last st) k;
      let currL := if p_efficient p
                   then efficient_size (p_L p) (stamps nd) last t
                   else p_L p in
      let last' := if p_efficient p then upd k t (b_last st) else b_last st in
      do bufs <- fill_buffers nb k
                   (chunk_to_send (compress k t currL) (- currL)) (b_buf st);
      Ok (mkB bufs (b_z st) (b_i st) last' (b_log st)).

  (** d_core.py 71-84: one event.  Only 'bc' and 'up' exist in a fully
      connected run; anything else raises ValueError. *)
  Definition do_event (p : sparams) (nodes : list snode)
      (compress : nat -> Z -> Z -> list A) (t : Z) (st : bstate)
      (e : nat * evtype) : res bstate :=
    match snd e with
    | Bc => broadcast p nodes compress t (fst e) st
    | Up => read_buffers (map nbrs nodes) (p_N p) (p_Ns p) (fst e) st
    | _ => Err ValueError
    end.

  Fixpoint foldM {S E} (f : S -> E -> res S) (es : list E) (st : S) : res S :=
    match es with
    | [] => Ok st
    | e :: es' => do st' <- f st e; foldM f es' st'
    end.

  (** d_core.py 62-84: the loop over the event instants. *)
  Definition run_schedule (p : sparams) (nodes : list snode)
      (compress : nat -> Z -> Z -> list A) (sched : list instant) (st : bstate)
    : res bstate :=
    foldM (fun st i => foldM (do_event p nodes compress (in_t i)) (in_evs i) st)
          sched st.

  (** d_classes.py 781-784, 803, 829: initial state. *)
  Definition init_state (nodes : list snode) : bstate :=
    mkB (map (fun nd => map (fun _ => []) (nbrs nd)) nodes)
        (map (fun _ => []) nodes)
        (map (fun _ => O) nodes)
        (map (fun _ => 0) nodes)
        [].
End Buf.
