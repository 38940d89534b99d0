(** Specification vocabulary for event instants. *)
From Verif Require Import Base Sched.
Open Scope Z_scope.

(** Earliest element of [l] strictly after [c]. *)
Definition earliest_after (l : list Z) (c t : Z) : Prop :=
  In t l /\ c < t /\ forall u, In u l -> c < u -> t <= u.

(** [ts] visits the nodes [node], [node+1], ... cyclically, each time taking
    the earliest instant of that node after the previous visit. *)
Fixpoint cyclic_chain (up : list (list Z)) (node : nat) (c : Z) (ts : list Z) : Prop :=
  match ts with
  | [] => True
  | t :: ts' =>
    (exists l, nth_error up (node mod length up)%nat = Some l /\ earliest_after l c t) /\
    cyclic_chain up (S node) t ts'
  end.

Definition largest (l : list Z) (m : Z) : Prop := In m l /\ forall u, In u l -> u <= m.

(** [r] is the sample instant of [ts] closest to [x] from above. *)
Definition next_sample (ts : list Z) (x r : Z) : Prop :=
  In r ts /\ x <= r /\ forall u, In u ts -> x <= u -> r <= u.

(** [r] is the sample instant of [ts] closest to [x] from below. *)
Definition prev_sample (ts : list Z) (x r : Z) : Prop :=
  In r ts /\ r <= x /\ forall u, In u ts -> u <= x -> u <= r.

(** Sample instants of an ideal clock of period [p]. *)
Definition exact_clock (p : Z) (Nt : nat) : list Z := map (fun i => Z.of_nat i * p) (seq 0 Nt).

(** The terms [s0, s0 + sep, s0 + 2 sep, ...] below [stop]. *)
Definition progression (s0 sep stop : Z) (l : list Z) : Prop :=
  forall i s, nth_error l i = Some s <-> s = s0 + Z.of_nat i * sep /\ s < stop.

(** [t] is the instant at which a positive number of blocks of [L] samples has
    been recorded. *)
Definition block_instant (L : nat) (ts : list Z) (t : Z) : Prop :=
  exists i, nth_error ts (L * S i) = Some t.

(** First sample position at which an event of a type is due, and separation in
    samples: updates when a whole frame is available, on the hop grid;
    broadcasts after a frame (whole chunks) or after [L] samples. *)
Definition ev_first (p : sparams) (ty : evtype) : Z :=
  match ty with
  | Up => cdiv (p_N p) (p_Ns p) * p_Ns p
  | _ => if p_whole p then p_N p else p_L p
  end.
Definition ev_sep (p : sparams) (ty : evtype) : Z :=
  match ty with Up => p_Ns p | _ => p_L p end.

(** Sample position [s] is the [i]-th nominal event of a progression that ends
    with the recording. *)
Definition nominal_event (nd : snode) (s0 sep : Z) (s : Z) : Prop :=
  exists i last_t, s = s0 + Z.of_nat i * sep /\ largest (stamps nd) last_t /\
    s < last_t / (period nd * sep) * sep.

