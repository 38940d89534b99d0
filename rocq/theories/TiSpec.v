(** Specification vocabulary for complete runs of topology-independent DANSE: the same
    computations in the nodes, with an ideal exchange of signals that knows no tree. *)
From Verif Require Import Base Sched SchedSpec Buffers ChunkSpec Tree TreeSpec InNet InNetSpec Online Filt Scm Ext Full TiRun.
From Coq Require Import Reals Sorted.
Local Open Scope nat_scope.

(** What belongs to one node: its variables, its fused signal as left by the latest fusion
    and the frame of its fused signal that takes part in the sum. *)
Record inode := mkIN { id_node : tnode; id_buf : list R; id_frame : list R }.
Definition ideal_start (c : tcfg) (nodes : list tnode) : list inode := map (fun nd => mkIN nd [] (repeat 0%R (tc_N c))) nodes.

(** the sum of the frames of all the nodes but [k] *)
Definition frame_of (l : list inode) (q : nat) : list R := match nth_error l q with Some s => id_frame s | None => [] end.
Definition sum_of_others (N : nat) (l : list inode) (k : nat) : list R :=
  map (fun i => sumR (length l) (fun q => if Nat.eqb q k then 0%R else nth i (frame_of l q) 0%R)) (seq 0 N).

(** A node fuses its signals; [Ns] new samples enter its frame. *)
Definition ideal_fuse (c : tcfg) y t (k : nat) (s : inode) : res inode :=
  do r <- ti_fusion c y t k (id_buf s) (id_node s);
  let b := match fst r with Some z => z | None => id_buf s end in
  Ok (mkIN (snd r) b (shifted_frame (tc_N c) (tc_Ns c) (id_frame s) b)).
(** A node whose update is scheduled, with bypass mark [b], updates with the sum of the
    frames of the others as its last channel. *)
Definition ideal_update (c : tcfg) y t (ups : nat -> option bool) (l : list inode) (k : nat) (s : inode) : res inode :=
  match ups k with
  | None => Ok s
  | Some b => do nd <- ti_update c y t k b (sum_of_others (tc_N c) l k) (id_node s); Ok (mkIN nd (id_buf s) (id_frame s))
  end.
(** every element by its own function *)
Definition each {A} (f : nat -> A -> res A) (l : list A) : res (list A) :=
  mapM (fun k => do s <- get l k; f k s) (seq 0 (length l)).
Definition ideal_instant (c : tcfg) y t (ups : nat -> option bool) (l : list inode) : res (list inode) :=
  do l1 <- each (ideal_fuse c y t) l;
  each (ideal_update c y t ups l1) l1.

(** The updates of an instant of a schedule, with their bypass marks; does the instant
    exchange signals? *)
Definition is_up_of (k : nat) (e : nat * evtype) : bool := Nat.eqb (fst e) k && match snd e with Up => true | _ => false end.
Definition updates_of (i : Sched.instant) (k : nat) : option bool :=
  option_map snd (find (fun em => is_up_of k (fst em)) (combine (in_evs i) (in_byp i))).
Definition exchanges (i : Sched.instant) : bool := existsb (fun e => match snd e with Fu => true | _ => false end) (in_evs i).
Definition ideal_run (c : tcfg) y (sched : list Sched.instant) (l : list inode) : res (list inode) :=
  foldM (fun l i => if exchanges i then ideal_instant c y (in_t i) (updates_of i) l else Ok l) sched l.

(** The events of an instant in which all the nodes exchange signals over the oriented tree
    [tr], in the order of the schedule, and any of them update. *)
Definition exchange_over (n : nat) (tr : option otree) (evs : list (nat * evtype)) : Prop :=
  exists nbrs r st o, is_tree n nbrs /\ r < n /\ orientate nbrs r = Ok (st, o) /\ tr = Some (o_up st, r) /\
    StronglySorted (ti_before o) evs /\ NoDup evs /\
    (forall k, k < n -> In (k, Fu) evs /\ In (k, Bc) evs /\ In (k, Re) evs) /\
    (forall e, In e evs -> fst e < n).
(** Schedules: every instant either only forms a tree or is such an exchange, over the latest
    tree formed ([c] trees have been formed before). *)
Fixpoint regular (n : nat) (trees : list otree) (c : nat) (sched : list Sched.instant) : Prop :=
  match sched with
  | [] => True
  | i :: rest =>
    let c' := c + trees_formed (in_evs i) in
    length (in_byp i) = length (in_evs i) /\ trees_formed (in_evs i) <= 1 /\
    ((exists k, in_evs i = [(k, Tr)] /\ c < length trees) \/
     (0 < c' /\ exchange_over n (nth_error trees (c' - 1)) (in_evs i))) /\
    regular n trees c' rest
  end.
(** At every exchange the signals of all the nodes have started and not yet ended. *)
Definition within_signals (c : tcfg) (y : list (list (list R))) (sched : list Sched.instant) : Prop :=
  forall i k sn yk col, In i sched -> exchanges i = true -> nth_error (o_nodes (tc_o c)) k = Some sn -> nth_error y k = Some yk -> In col yk ->
    (0 <= in_t i / period sn <= Z.of_nat (length col))%Z.
(** Fusions leave as many samples as are exchanged: whole chunks, or [Ns] samples at a time. *)
Definition enough (c : tcfg) : Prop :=
  p_whole (o_p (tc_o c)) = true \/ (p_efficient (o_p (tc_o c)) = false /\ p_L (o_p (tc_o c)) = p_Ns (o_p (tc_o c))).
(** The state of the run seen node by node. *)
Definition view (s : tst) : list inode :=
  map (fun p => mkIN (fst (fst p)) (snd (fst p)) (snd p)) (combine (combine (ts_nodes s) (zpb (ts_net s))) (zp (ts_net s))).

(** ** Completion of runs *)
Definition never_zero (nb ch : nat) (w : coefs) : Prop := forall f, f < nb -> w f ch <> Cx.czero.
(** Settings of a run in whole chunks with unrelaxed external filters, half-overlapping
    frames, signals of [T] samples in every sensor of every node and activity decisions for
    [slots] frames; the estimates of the coefficient of the in-network sum, which is the last
    one of a filter, are never zero. *)
Record settings (c : tcfg) (y : list (list (list R))) (q T slots : nat) : Prop := {
  se_frame : 0 < q /\ p_N (o_p (tc_o c)) = Z.of_nat (2 * q) /\ p_Ns (o_p (tc_o c)) = Z.of_nat q /\ p_whole (o_p (tc_o c)) = true;
  se_windows : o_wola (tc_o c) = true /\ length (o_h (tc_o c)) = 2 * q /\ length (o_f (tc_o c)) = 2 * q;
  se_nodes : length (o_nodes (tc_o c)) = length y;
  se_signals : Forall (fun yk => yk <> [] /\ Forall (fun col : list R => length col = T) yk) y;
  se_vad : forall k, k < length y -> exists vk, nth_error (ac_vad (tc_a c)) k = Some vk /\ slots <= length vk;
  se_ext : forall k, xp_ref_only (ac_x (tc_a c) k) = false /\ xp_single (ac_x (tc_a c) k) = false /\ xp_off (ac_x (tc_a c) k) = true;
  se_solve : forall m ryy rnn, never_zero (tc_bins c) m (ac_solve (tc_a c) (S m) ryy rnn) }.
(** Node [k] has filters for [slots] iterations, with coefficients of the sum that are not
    zero, for as many channels as it has sensors and one more. *)
Record ready (c : tcfg) (y : list (list (list R))) (T slots k : nat) (nd : tnode) : Prop := {
  re_w : length (e_w (fn_danse (tn_f nd))) = slots /\ Forall (never_zero (tc_bins c) (length (nth k y []))) (e_w (fn_danse (tn_f nd)));
  re_dim : e_dim (fn_danse (tn_f nd)) = S (length (nth k y []));
  re_others : (exists e, fn_local (tn_f nd) = Some e /\ length (e_w e) = slots) /\ fn_centr (tn_f nd) = None /\ fn_ssbc (tn_f nd) = None;
  re_x : length (x_ext (tn_x nd)) = slots /\ x_i (tn_x nd) = fn_i (tn_f nd) /\ Forall (never_zero (tc_bins c) (length (nth k y []))) (x_ext (tn_x nd));
  re_d : length (tn_d nd) = T /\ length (tn_dl nd) = T }.
(** Every exchange takes place within the signals, and after the first frame at nodes that
    update. *)
Definition timely (c : tcfg) (T : nat) (sched : list Sched.instant) : Prop :=
  forall i k sn, In i sched -> exchanges i = true -> nth_error (o_nodes (tc_o c)) k = Some sn ->
    (0 <= in_t i / period sn <= Z.of_nat T)%Z /\
    (updates_of i k <> None -> p_N (o_p (tc_o c)) - p_Ns (o_p (tc_o c)) < in_t i / period sn)%Z.

(** [cols] holds the [N] samples of each channel of [yk] that end at sample [e], zeros
    standing for samples before the first. *)
Definition frames (N e : Z) (yk cols : list (list R)) : Prop :=
  Forall2 (fun col fr => Z.of_nat (length fr) = N /\ forall i, (0 <= i < N)%Z -> nth_error fr (Z.to_nat i) = Some (sample 0%R col (e - N + i))) yk cols.
(** States of node [k] that fusions and updates before instant [T] lead to from [nd0],
    whatever the exchanged signals. *)
Inductive reached_before (c : tcfg) (y : list (list (list R))) (k : nat) (T : Z) (nd0 : tnode) : tnode -> Prop :=
| rb_start : reached_before c y k T nd0 nd0
| rb_fusion nd t buf z nd' : reached_before c y k T nd0 nd -> (t < T)%Z -> ti_fusion c y t k buf nd = Ok (z, nd') -> reached_before c y k T nd0 nd'
| rb_update nd t byp em nd' : reached_before c y k T nd0 nd -> (t < T)%Z -> ti_update c y t k byp em nd = Ok nd' -> reached_before c y k T nd0 nd'.
(** The filter that node [k] obtains from an update that is not bypassed: the estimated one
    once updates are enabled, the one stored before otherwise. *)
Definition estimated_filter (c : tcfg) (nd nd' : tnode) (w : coefs) : Prop :=
  let e := fn_danse (tn_f nd') in
  if negb (f_bypass_all (ac_p (tc_a c))) && e_start e then w = ac_solve (tc_a c) (e_dim e) (e_ryy e) (e_rnn e)
  else nth_error (e_w (fn_danse (tn_f nd))) (S (fn_i (tn_f nd))) = Some w.
