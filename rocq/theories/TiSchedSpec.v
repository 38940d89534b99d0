(** Specification vocabulary for runs of topology-independent DANSE with their schedule (C74). *)
From Verif Require Import Base Sched SchedSpec InstSpec Buffers Tree TreeSpec InNet InNetSpec TiSpec.
Open Scope Z_scope.

(** All the nodes sample at the instants [0, per, 2 per, ...], [T] times; a frame is [R] hops
    long and as many samples are sent at a time as the frames advance by. *)
Record common_clock (p : sparams) (nodes : list snode) (per : Z) (T R : nat) : Prop := {
  cc_per : 0 < per;
  cc_hop : 0 < p_Ns p /\ p_N p = Z.of_nat R * p_Ns p /\ p_L p = p_Ns p /\ (2 <= R)%nat;
  cc_mode : p_ti p = true /\ (p_whole p = true \/ p_efficient p = false);
  cc_nodes : forall nd, In nd nodes -> period nd = per /\ stamps nd = exact_clock per T;
  cc_start : (p_start p < length nodes)%nat }.
(** Hop at which the exchanges and the updates start, and hop at which they have ended. *)
Definition first_exchange (p : sparams) (R : nat) : nat := if p_whole p then R else 1%nat.
Definition first_update (p : sparams) (R : nat) : nat := if p_whole p then (2 * R)%nat else R.
Definition hops (p : sparams) (T : nat) : nat := Z.to_nat (Z.of_nat (T - 1) / p_Ns p).

(** For every root, a tree over the nodes, oriented towards the root. *)
Definition trees_over (n : nat) (nbrs_of : nat -> list (list nat)) (tree_of : nat -> otree) (ordering_of : nat -> ordering) : Prop :=
  forall r, (r < n)%nat -> is_tree n (nbrs_of r) /\
    exists st, orientate (nbrs_of r) r = Ok (st, ordering_of r) /\ tree_of r = (o_up st, r).
