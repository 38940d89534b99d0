(** Property C17: exchange of raw sensor signals.  Vocabulary: CentrSpec.v. *)
From Verif Require Import Base BaseFacts Sched Buffers BufFacts Centr CentrSpec CentrFacts.
Open Scope nat_scope.

(** Slots of one receiver are exactly 0..n-2, one per other node, in order. *)
Theorem C17_slots_bijective n r :
  r < n ->
  (forall s, s < n -> s <> r -> slot r s < n - 1) /\
  (forall i, i < n - 1 -> exists s, s < n /\ s <> r /\ slot r s = i) /\
  (forall s s', s <> r -> s' <> r -> slot r s = slot r s' -> s = s') /\
  (forall s s', s <> r -> s' <> r -> s < s' -> slot r s < slot r s').
Proof.
  exact (fun H => conj (fun s H1 H2 => slot_lt n r s H H1 H2)
           (conj (fun i Hi => slot_surj n r i H Hi) (conj (slot_inj r) (slot_mono r)))).
Qed.

(** [raw bufs r s b]: receiver [r] holds [b] for the raw signals of [s]. *)
Definition raw {A} (bufs : list (list (list (list A)))) (r s : nat) (b : list (list A)) : Prop :=
  exists br, nth_error bufs r = Some br /\ nth_error br (if s <? r then s else s - 1) = Some b.

(** One broadcast of raw signals by node [k] appends the chunk to what every
    other node holds for [k] and changes nothing else. *)
Theorem C17_raw_broadcast A n k (chunk : list (list A)) bufs :
  k < n -> length bufs = n -> Forall (fun bq => length bq = n - 1) bufs ->
  exists bufs', fill_centr n k chunk bufs = Ok bufs' /\
    length bufs' = n /\ Forall (fun bq => length bq = n - 1) bufs' /\
    forall r s b, r < n -> s < n -> s <> r -> raw bufs r s b ->
      raw bufs' r s (if Nat.eqb s k then b ++ chunk else b).
Proof.
  intros Hk Hl HF. destruct (fill_centr_spec A n k chunk bufs Hk (conj Hl HF)) as [b' [E [[L F] H]]].
  exists b'. repeat split; assumption.
Qed.

(** At an update, the frames of the other nodes are assembled sender by sender
    (same rule as for compressed signals, see C15), each from that sender's
    buffer and that sender's part of the previous frame, and put side by side
    in the order of the nodes. *)
Theorem C17_incoming_raw A (zero : A) k nsens first Ndft Ns yc bufs (prev buf : nat -> list (list A)) yk fl :
  let n := length nsens in
  (0 < Ndft)%Z -> k < n ->
  (forall q, q < n -> q <> k -> nth_error bufs (slot k q) = Some (buf q) /\
     Forall (fun row => length row = nth q nsens 0) (buf q)) ->
  (first = false -> yc = side_by_side (Z.to_nat Ndft) (map prev (others n k)) /\
     forall q, q < n -> q <> k -> is_matrix (Z.to_nat Ndft) (nth q nsens 0) (prev q)) ->
  process_centr zero nsens k first Ndft Ns yc bufs = Ok (yk, fl) ->
  exists (fr : nat -> list (list A)) (flag : nat -> Z),
    yk = side_by_side (Z.to_nat Ndft) (map fr (others n k)) /\
    (forall q, q < n -> q <> k ->
       assemble (repeat zero (nth q nsens 0)) first Ndft Ns (prev q) (buf q) = Ok (fr q, flag q) /\
       is_matrix (Z.to_nat Ndft) (nth q nsens 0) (fr q) /\ nth_error fl q = Some (flag q)) /\
    nth_error fl k = Some 0%Z /\ length fl = n.
Proof. exact (process_centr_frames A zero k nsens first Ndft Ns yc bufs prev buf yk fl). Qed.

(** The centralised observation lists the sensors of node 0, 1, ..., n-1 in
    this order, the node's own ones at its own place. *)
Theorem C17_stacking A k nsens Ndft (local : list (list A)) (fr : nat -> list (list A)) :
  let n := length nsens in
  k < n -> length local = Z.to_nat Ndft ->
  (forall q, q < n -> q <> k -> is_matrix (Z.to_nat Ndft) (nth q nsens 0) (fr q)) ->
  build_ycentr nsens k Ndft local (side_by_side (Z.to_nat Ndft) (map fr (others n k)))
  = Ok (side_by_side (Z.to_nat Ndft) (map (fun q => if Nat.eqb q k then local else fr q) (seq 0 n))).
Proof. exact (build_ycentr_spec A k nsens Ndft local fr). Qed.

(** Three nodes with 1, 2 and 1 sensors, seen from node 1: first update, node 0
    has a full frame, node 2 one sample only. *)
Example C17_example :
  process_centr 0 [1; 2; 1] 1 true 2 1 [] [[[10]; [11]]; [[20]]]
  = Ok ([[10; 0]; [11; 20]], [0; 0; -1]%Z) /\
  build_ycentr [1; 2; 1] 1 2 [[50; 60]; [51; 61]] [[10; 0]; [11; 20]]
  = Ok [[10; 50; 60; 0]; [11; 51; 61; 20]] /\
  side_by_side 2 (map (fun q => nth q [[[10]; [11]]; []; [[0]; [20]]] []) (others 3 1)) = [[10; 0]; [11; 20]].
Proof. vm_compute. repeat split. Qed.

Example C17_broadcast_example :
  fill_centr 3 1 [[7]; [8]] [[[[1]]; []]; [[]; []]; [[]; [[2]]]]
  = Ok [[[[1]; [7]; [8]]; []]; [[]; []]; [[]; [[2]; [7]; [8]]]].
Proof. reflexivity. Qed.

(** A network of two or more nodes cannot send an empty raw chunk: the
    exception of [fill_buffers_centr] for [n = 0]. *)
Theorem C17_empty_chunk_fails A nNodes (y : list (list A)) :
  chunk_centr nNodes y 0 = Err ValueError <-> 1 < nNodes.
Proof.
  unfold chunk_centr. simpl. destruct (Nat.ltb_spec 1 nNodes); split; intros; try discriminate; try reflexivity; lia.
Qed.

Print Assumptions C17_slots_bijective.
Print Assumptions C17_raw_broadcast.
Print Assumptions C17_incoming_raw.
Print Assumptions C17_stacking.
Print Assumptions C17_empty_chunk_fails.
