(** Properties C12-C16: exchange of compressed signals.  Vocabulary: BufSpec.v. *)
From Verif Require Import Base BaseFacts Sched SchedSpec InstSpec InstFacts Buffers BufSpec BufFacts
  SyncFacts SyncFacts2 SyncFacts3 SyncFacts4 SchedProps BufFacts2.
Open Scope Z_scope.

(** ** C12: synchronous runs *)

(** Few-sample broadcasts: one frame at the first update of a node, one hop at
    every later one, and every flag is 0. *)
Theorem C12_few_samples_no_flags A (zero : A) tsort p nodes ordering_of compress per Nt :
  is_argsort tsort -> good_params p -> p_whole p = false -> p_ti p = false ->
  (p_Ns p | p_N p) -> (p_L p | p_Ns p) -> p_L p < Z.of_nat Nt ->
  synchronous per Nt nodes -> symmetric_net (map nbrs nodes) ->
  (forall k t n, 0 <= n -> Z.of_nat (length (compress k t n)) = n) ->
  exists sched, initialize_events tsort p nodes ordering_of = Ok (sched, []) /\
    (forall t k, scheduled sched t k Up <-> (k < length nodes)%nat /\
       exists i, t = (p_N p + Z.of_nat i * p_Ns p) * per /\
                 p_N p + Z.of_nat i * p_Ns p < Z.of_nat (Nt - 1) / p_Ns p * p_Ns p) /\
    (forall pre t k post, events_of sched = pre ++ (t, (k, Up)) :: post ->
       exists st, run_events zero p nodes compress pre (init_state A nodes) = Ok st /\
         forall idx q b, link (map nbrs nodes) k idx q -> buffer_at (b_buf st) k idx b ->
           Z.of_nat (length b) = if Nat.eqb (event_count k Up pre) 0 then p_N p else p_Ns p) /\
    exists st, run_schedule zero p nodes compress sched (init_state A nodes) = Ok st /\
      forall k nd, nth_error nodes k = Some nd ->
        flag_rows k (b_log st) = repeat (repeat 0 (length (nbrs nd))) (event_count k Up (events_of sched)).
Proof. exact (sync_few A zero tsort p nodes ordering_of compress per Nt). Qed.

(** Whole-chunk broadcasts: the first update of each node only finds one hop,
    and flags the rest of the frame as missing; all later flags are 0.  The
    claim as written (no flag at all) thus holds iff the hop is the frame. *)
Theorem C12_whole_chunk_flags A (zero : A) tsort p nodes ordering_of compress per Nt :
  is_argsort tsort -> good_params p -> p_whole p = true -> p_L p = p_Ns p -> p_ti p = false ->
  (p_Ns p | p_N p) -> (0 < Nt)%nat ->
  synchronous per Nt nodes -> symmetric_net (map nbrs nodes) ->
  (forall k t n, 0 <= n -> Z.of_nat (length (compress k t n)) = n) ->
  exists sched, initialize_events tsort p nodes ordering_of = Ok (sched, []) /\
    (forall pre t k post, events_of sched = pre ++ (t, (k, Up)) :: post ->
       exists st, run_events zero p nodes compress pre (init_state A nodes) = Ok st /\
         forall idx q b, link (map nbrs nodes) k idx q -> buffer_at (b_buf st) k idx b ->
           Z.of_nat (length b) = p_Ns p) /\
    exists st, run_schedule zero p nodes compress sched (init_state A nodes) = Ok st /\
      forall k nd, nth_error nodes k = Some nd ->
        flag_rows k (b_log st) =
        match event_count k Up (events_of sched) with
        | O => []
        | S m => repeat (p_Ns p - p_N p) (length (nbrs nd)) :: repeat (repeat 0 (length (nbrs nd))) m
        end.
Proof. exact (sync_whole A zero tsort p nodes ordering_of compress per Nt). Qed.

(** A concrete synchronous whole-chunk run (frame 4, hop 2) that raises flags. *)
Definition c12_nodes : list snode :=
  [mkNode 1 (exact_clock 1 13) [1%nat]; mkNode 1 (exact_clock 1 13) [0%nat]].
Theorem C12_whole_chunk_refuted :
  exists sched st, initialize_events tsort0 ex_params c12_nodes (fun _ => []) = Ok (sched, []) /\
    run_schedule 0 ex_params c12_nodes (fun _ _ n => repeat 7 (Z.to_nat n)) sched (init_state Z c12_nodes) = Ok st /\
    flag_rows 0 (b_log st) = [[-2]; [0]; [0]; [0]].
Proof. eexists. eexists. split; [vm_compute; reflexivity|]. split; vm_compute; reflexivity. Qed.

Example C12_few_example :
  let p := mkP 4 2 1 false false false false false 0 0 in
  synchronous 1 13 c12_nodes /\ symmetric_net (map nbrs c12_nodes) /\
  exists sched st, initialize_events tsort0 p c12_nodes (fun _ => []) = Ok (sched, []) /\
    run_schedule 0 p c12_nodes (fun _ _ n => repeat 7 (Z.to_nat n)) sched (init_state Z c12_nodes) = Ok st /\
    flag_rows 0 (b_log st) = [[0]; [0]; [0]; [0]].
Proof.
  split; [|split].
  - split; [lia|]. intros nd [<-|[<-|[]]]; split; reflexivity.
  - apply two_node_net.
  - eexists. eexists. split; [vm_compute; reflexivity|]. split; vm_compute; reflexivity.
Qed.

Example C12_efficient_example :
  let p := mkP 4 2 1 false true false false false 0 0 in
  exists sched st, initialize_events tsort0 p c12_nodes (fun _ => []) = Ok (sched, []) /\
    run_schedule 0 p c12_nodes (fun _ _ n => repeat 7 (Z.to_nat n)) sched (init_state Z c12_nodes) = Ok st /\
    flag_rows 0 (b_log st) = [[0]; [0]; [0]; [0]].
Proof. eexists. eexists. split; [vm_compute; reflexivity|]. split; vm_compute; reflexivity. Qed.

(** ** C13: a broadcast reaches exactly the neighbours *)
Theorem C13_broadcast_reaches_neighbours A nb k (chunk : list A) bufs :
  symmetric_net nb -> shaped A nb bufs -> (k < length nb)%nat ->
  exists bufs', fill_buffers nb k chunk bufs = Ok bufs' /\ shaped A nb bufs' /\
    forall k' idx s b, link nb k' idx s -> buffer_at bufs k' idx b ->
      buffer_at bufs' k' idx (if Nat.eqb s k then b ++ chunk else b).
Proof. exact (fill_buffers_spec A nb k chunk bufs). Qed.

(** The stand-alone function used for few-sample broadcasts does the same with
    the last [L] samples. *)
Theorem C13_few_samples_helper A nb k (z : list A) L bufs :
  symmetric_net nb -> shaped A nb bufs -> (k < length nb)%nat -> 0 < L <= Z.of_nat (length z) ->
  exists bufs', fill_buffers_td_few_samples nb k z L bufs = Ok bufs' /\ shaped A nb bufs' /\
    forall k' idx s b, link nb k' idx s -> buffer_at bufs k' idx b ->
      buffer_at bufs' k' idx (if Nat.eqb s k then b ++ skipn (length z - Z.to_nat L) z else b).
Proof. exact (td_few_spec A nb k z L bufs). Qed.

(** Whose buffers: position [idx] of receiver [k'] belongs to sender [s] for
    exactly one [idx], and exists iff [k'] is a neighbour of [s]. *)
Theorem C13_one_buffer_per_neighbour nb k' s ls :
  symmetric_net nb -> nth_error nb s = Some ls ->
  ((exists idx, link nb k' idx s) <-> In k' ls) /\
  forall i j, link nb k' i s -> link nb k' j s -> i = j.
Proof. exact (link_neighbour nb k' s ls). Qed.

Example C13_example :
  let nb := [[2; 1]; [0]; [0]]%nat in
  symmetric_net nb /\
  fill_buffers nb 1 [5; 6] [[[1]; [2]]; [[3]]; [[]]] = Ok [[[1]; [2; 5; 6]]; [[3]]; [[]]] /\
  fill_buffers nb 0 [5] [[[1]; [2]]; [[3]]; [[]]] = Ok [[[1]; [2]]; [[3; 5]]; [[5]]].
Proof. split; [apply star_net | split; reflexivity]. Qed.

(** ** C14: lossless FIFOs *)
Theorem C14_lossless_fifo A (zero : A) nb Ndft Ns h st :
  0 < Ndft -> symmetric_net nb ->
  exec zero nb Ndft Ns h (start_state A nb) = Ok st ->
  forall k idx q, link nb k idx q -> buffer_at (b_buf st) k idx (received q k h).
Proof. exact (fifo A zero nb Ndft Ns h st). Qed.

(** [received] is what it should be: the concatenation of what was sent since
    the last read. *)
Theorem C14_received_since_last_read A q k (h1 h2 : list (op A)) :
  reads k h2 = 0%nat ->
  received q k (h1 ++ Read k :: h2) = sent q h2 /\ received q k h2 = sent q h2.
Proof. exact (fun H => conj (received_since A q k h1 h2 H) (received_none A q k h2 H)). Qed.

(** An execution only ever fails because a buffer outgrew the frame. *)
Theorem C14_total A (zero : A) nb Ndft Ns h :
  0 < Ndft -> symmetric_net nb ->
  (forall o, In o h -> match o with Send k _ => (k < length nb)%nat | Read k => (k < length nb)%nat end) ->
  (forall pre k post q, h = pre ++ Read k :: post -> reads k pre <> 0%nat -> (exists idx, link nb k idx q) ->
     Z.of_nat (length (received q k pre)) <= Ndft) ->
  exists st, exec zero nb Ndft Ns h (start_state A nb) = Ok st.
Proof. exact (exec_total A zero nb Ndft Ns h). Qed.

(** What an update reads from each neighbour, and which buffers it empties. *)
Theorem C14_update_reads A (zero : A) nb Ndft Ns h k st :
  0 < Ndft -> symmetric_net nb ->
  exec zero nb Ndft Ns (h ++ [Read k]) (start_state A nb) = Ok st ->
  (forall k' idx q, link nb k' idx q ->
     buffer_at (b_buf st) k' idx (if Nat.eqb k' k then [] else received q k' h)) /\
  exists zk, nth_error (b_z st) k = Some zk /\
    forall idx q, link nb k idx q -> exists frame, nth_error zk idx = Some frame /\
      Z.of_nat (length frame) = Ndft /\
      (Z.of_nat (length (received q k h)) <= Ndft -> exists old, frame = old ++ received q k h) /\
      (Ndft < Z.of_nat (length (received q k h)) -> exists lost, received q k h = lost ++ frame).
Proof. exact (update_reads A zero nb Ndft Ns h k st). Qed.

Example C14_example :
  let nb := [[2; 1]; [0]; [0]]%nat in
  exists st, exec 0 nb 4 2 [Send 1%nat [1; 2]; Send 2%nat [8]; Send 1%nat [3]; Read 0%nat; Send 1%nat [4]] (start_state Z nb) = Ok st /\
    b_buf st = [[[]; [4]]; [[]]; [[]]] /\ nth_error (b_z st) 0 = Some [[0; 0; 0; 8]; [0; 1; 2; 3]].
Proof. eexists. split; [vm_compute; reflexivity | split; reflexivity]. Qed.

(** ** C15: frames and flags *)
Theorem C15_frame_and_flag A (zero : A) first Ndft Ns prev buf frame flag :
  0 < Ndft ->
  assemble zero first Ndft Ns prev buf = Ok (frame, flag) ->
  Z.of_nat (length frame) = Ndft /\
  flag = Z.of_nat (length buf) - (if first then Ndft else Ns) /\
  (Z.of_nat (length buf) <= Ndft ->
     frame = (if first then repeat zero (Z.to_nat Ndft - length buf)
              else skipn (length prev - (Z.to_nat Ndft - length buf)) prev) ++ buf) /\
  (Ndft < Z.of_nat (length buf) -> first = true /\ frame = skipn (length buf - Z.to_nat Ndft) buf).
Proof. exact (assemble_spec A zero first Ndft Ns prev buf frame flag). Qed.

(** It succeeds whenever the previous frame is complete, except for a buffer
    longer than the frame after the first iteration. *)
Theorem C15_assembly_succeeds A (zero : A) first Ndft Ns prev buf :
  0 < Ndft -> (first = false -> Z.of_nat (length prev) = Ndft) ->
  ((exists r, assemble zero first Ndft Ns prev buf = Ok r) <->
   (first = true \/ Z.of_nat (length buf) <= Ndft)).
Proof. exact (assemble_iff A zero first Ndft Ns prev buf). Qed.

(** Totals over a whole history. *)
Theorem C15_flags_account_for_samples A (zero : A) nb Ndft Ns h st k idx q :
  0 < Ndft -> symmetric_net nb ->
  exec zero nb Ndft Ns h (start_state A nb) = Ok st ->
  link nb k idx q -> reads k h <> 0%nat ->
  sumZ (map (fun row => nth idx row 0) (flag_rows k (b_log st))) =
    Z.of_nat (length (sent q h)) - Z.of_nat (length (received q k h))
    - Ndft - Ns * (Z.of_nat (reads k h) - 1).
Proof. exact (flags_account A zero nb Ndft Ns h st k idx q). Qed.

Example C15_example :
  assemble 0 true 4 2 [] [1; 2] = Ok ([0; 0; 1; 2], -2) /\
  assemble 0 true 4 2 [] [1; 2; 3; 4; 5] = Ok ([2; 3; 4; 5], 1) /\
  assemble 0 false 4 2 [6; 7; 8; 9] [1; 2; 3] = Ok ([9; 1; 2; 3], 1) /\
  assemble 0 false 4 2 [6; 7; 8; 9] [1; 2; 3; 4; 5] = Err ValueError.
Proof. repeat split; reflexivity. Qed.

(** ** C16: efficient broadcasts *)
Theorem C16_multiple_of_L L ts last t :
  0 < L -> 0 <= efficient_size L ts last t /\ (L | efficient_size L ts last t).
Proof. exact (efficient_size_mult L ts last t). Qed.

(** Never more than the samples recorded since the last broadcast, and fewer
    than L of them are left over. *)
Theorem C16_never_too_many L ts last t :
  0 < L ->
  efficient_size L ts last t <= Z.of_nat (length (filter (fun u => (last <? u) && (u <=? t)) ts))
    < efficient_size L ts last t + L.
Proof. exact (efficient_size_bound L ts last t). Qed.

(** Broadcasts at multiples of L samples of an ideal clock: the sizes add up to
    the number of sample periods elapsed. *)
Theorem C16_total_is_elapsed per Nt L (ms : list Z) :
  0 < per -> 0 < L -> StronglySorted Z.lt (0 :: ms) -> (forall m, In m ms -> m * L < Z.of_nat Nt) ->
  sumZ (broadcast_sizes L (exact_clock per Nt) 0 (map (fun m => m * L * per) ms)) = last ms 0 * L.
Proof. exact (efficient_total per Nt L ms). Qed.

Example C16_example :
  broadcast_sizes 2 (exact_clock 10 20) 0 [40; 60; 120] = [4; 2; 6].
Proof. reflexivity. Qed.
(** Off the grid, samples are left behind for good: 3+3 recorded, 2+2 sent. *)
Example C16_off_grid :
  broadcast_sizes 2 (exact_clock 10 20) 0 [30; 60] = [2; 2].
Proof. reflexivity. Qed.
