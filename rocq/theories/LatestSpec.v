(** Specification vocabulary for the frames received in a run (C68). *)
From Verif Require Import Base Sched Buffers BufSpec Online OnlineSpec DistSpec.
From Coq Require Import Reals.
Local Open Scope R_scope.

(** The latest [n] of a sequence of samples, zeros before the first. *)
Definition latest {A} (zero : A) (n : nat) (l : list A) : list A := skipn (length l) (repeat zero n ++ l).

(** What node [q] sends at a broadcast, in the state after it: the compressed block of
    that broadcast (whole-chunk broadcasting: its first hop). *)
Definition block (c : ocfg) (q : nat) (s : ostate R) : list R :=
  let z := nth q (os_zl s) [] in
  if p_whole (o_p c) then firstn (Z.to_nat (p_Ns (o_p c))) z else z.

(** Everything node [q] sends during the first [m] events of a run. *)
Definition samples_sent (c : ocfg) (y : list (list (list R))) (sched : list instant) (st : ostate R) (q m : nat) : list R :=
  flat_map (fun j => match nth_error (flat_events sched) j with
                     | Some te => if is_bc q te
                                  then match reached c y sched st (S j) with Ok s => block c q s | Err _ => [] end
                                  else []
                     | None => []
                     end) (seq 0 m).

(** Frame received by node [k] from its neighbour number [idx]. *)
Definition received_frame (s : ostate R) (k idx : nat) : list R := nth idx (nth k (b_z (os_b s)) []) [].

(** Signals, numbers of sensors, filters and windows fit together: [T] samples of every
    sensor, at least one sensor per node, frames of [2 q] samples, as many coefficients
    as channels. *)
Record consistent (c : ocfg) (y : list (list (list R))) (nsens : list nat) (q T : nat) : Prop := {
  cs_nodes : length y = length (o_nodes c);
  cs_sensors : nsens = map (@length (list R)) y;
  cs_signals : Forall (fun yk => yk <> [] /\ Forall (fun col => length col = T) yk) y;
  cs_frame : (0 < q)%nat /\ p_N (o_p c) = Z.of_nat (2 * q);
  cs_windows : length (o_h c) = (2 * q)%nat /\ length (o_f c) = (2 * q)%nat /\ o_wola c = true;
  cs_ext : forall k i, (k < length y)%nat -> length (o_ext c k i) = length (nth k y []) /\ Forall (fun w => length w = (q + 1)%nat) (o_ext c k i);
  cs_int : forall k i, (k < length y)%nat -> length (o_int c k i) = (length (nth k y []) + length (nbrs (nth k (o_nodes c) (mkNode 1 [] []))))%nat /\ Forall (fun w => length w = (q + 1)%nat) (o_int c k i);
  cs_loc : forall k i, (k < length y)%nat -> length (o_loc c k i) = length (nth k y []) /\ Forall (fun w => length w = (q + 1)%nat) (o_loc c k i);
  cs_comp : o_comp c = true -> forall k, (k < length y)%nat -> nbrs (nth k (o_nodes c) (mkNode 1 [] [])) <> [] /\
              forall i, length (o_est c k i) = length (nbrs (nth k (o_nodes c) (mkNode 1 [] [])))
}.

(** Synchronous network with full-cycle scheduling: all nodes have exact clocks of period
    [per] over [T] samples, neighbours are mutual, the broadcast length divides the hop and
    the hop divides the frame (whole-chunk broadcasting: one broadcast per hop). *)
Record regular (c : ocfg) (per : Z) (T : nat) : Prop := {
  rg_params : (0 < p_N (o_p c))%Z /\ (0 < p_Ns (o_p c))%Z /\ (0 < p_L (o_p c))%Z;
  rg_scheme : p_ti (o_p c) = false;
  rg_whole : p_whole (o_p c) = true -> p_L (o_p c) = p_Ns (o_p c);
  rg_few : p_whole (o_p c) = false -> p_efficient (o_p c) = false;
  rg_hop : (p_Ns (o_p c) | p_N (o_p c));
  rg_blocks : (p_L (o_p c) | p_Ns (o_p c));
  rg_time : (0 < T)%nat;
  rg_clocks : synchronous per T (o_nodes c);
  rg_net : symmetric_net (map nbrs (o_nodes c))
}.

(** Gain at which sample [n] is sent if the external filters select a sensor: one until
    the first renewal of the time-domain filter, the correlation of the windows at lag one
    over the hop from then on.  Sample [n] is in the block sent at sample
    [(n / L + 1) L]. *)
Definition send_gain (c : ocfg) (per n : Z) : R :=
  if ((n / p_L (o_p c) + 1) * p_L (o_p c) * per <? o_every c)%Z then 1
  else window_corr (o_h c) (o_f c) 1 / INR (Z.to_nat (p_Ns (o_p c))).
