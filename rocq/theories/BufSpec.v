(** Specification vocabulary for the exchange of signals. *)
From Verif Require Import Base Sched Buffers.
Set Implicit Arguments.
Open Scope Z_scope.

(** Neighbour lists of a network: indices in range, no repetition, symmetric. *)
Definition symmetric_net (nb : list (list nat)) : Prop :=
  (forall k l, nth_error nb k = Some l -> NoDup l /\ ~ In k l /\ forall q, In q l -> (q < length nb)%nat) /\
  (forall k q lk lq, nth_error nb k = Some lk -> nth_error nb q = Some lq -> (In q lk <-> In k lq)).

Section Spec.
  Variable A : Type.

  (** Histories: node [k] sends samples, or node [k] reads its buffers. *)
  Inductive op := Send (k : nat) (chunk : list A) | Read (k : nat).

  (** What [k] has received from [q] since it last read its buffers. *)
  Definition received (q k : nat) (h : list op) : list A :=
    fold_left (fun acc o =>
      match o with
      | Send s c => if Nat.eqb s q then acc ++ c else acc
      | Read r => if Nat.eqb r k then [] else acc
      end) h [].

  (** Everything [q] has sent. *)
  Definition sent (q : nat) (h : list op) : list A :=
    flat_map (fun o => match o with Send s c => if Nat.eqb s q then c else [] | Read _ => [] end) h.

  (** Number of times [k] has read its buffers. *)
  Definition reads (k : nat) (h : list op) : nat :=
    length (filter (fun o => match o with Read r => Nat.eqb r k | _ => false end) h).

  (** Position [idx] of node [k]'s buffers belongs to neighbour [q]. *)
  Definition link (nb : list (list nat)) (k idx q : nat) : Prop :=
    exists l, nth_error nb k = Some l /\ nth_error l idx = Some q.

  Definition buffer_at (bufs : buffers A) (k idx : nat) (b : list A) : Prop :=
    exists bk, nth_error bufs k = Some bk /\ nth_error bk idx = Some b.

  (** Execution of a history by the model. *)
  Definition exec_op (zero : A) (nb : list (list nat)) (Ndft Ns : Z) (st : bstate A) (o : op) : res (bstate A) :=
    match o with
    | Send k c =>
      do bufs <- fill_buffers nb k c (b_buf st);
      Ok (mkB bufs (b_z st) (b_i st) (b_last st) (b_log st))
    | Read k => read_buffers zero nb Ndft Ns k st
    end.
  Definition exec (zero : A) (nb : list (list nat)) (Ndft Ns : Z) (h : list op) (st : bstate A) : res (bstate A) :=
    foldM (exec_op zero nb Ndft Ns) h st.

  (** Initial state for given neighbour lists. *)
  Definition start_state (nb : list (list nat)) : bstate A :=
    mkB (map (map (fun _ => [])) nb) (map (fun _ => []) nb) (map (fun _ => O) nb) (map (fun _ => 0) nb) [].
End Spec.
Arguments Read {A} k.

(** Events of a schedule, one by one, in processing order. *)
Definition events_of (s : list instant) : list (Z * (nat * evtype)) :=
  flat_map (fun i => map (fun e => (in_t i, e)) (in_evs i)) s.

(** Processing of a list of timed events. *)
Definition run_events {A} (zero : A) (p : sparams) (nodes : list snode)
    (compress : nat -> Z -> Z -> list A) (evs : list (Z * (nat * evtype))) (st : bstate A) : res (bstate A) :=
  foldM (fun st te => do_event zero p nodes compress (fst te) st (snd te)) evs st.

(** All nodes sample at the same instants. *)
Definition synchronous (per : Z) (Nt : nat) (nodes : list snode) : Prop :=
  0 < per /\ forall nd, In nd nodes -> period nd = per /\ stamps nd = map (fun i => Z.of_nat i * per) (seq 0 Nt).

(** Rows of buffer flags written by node [k], in order. *)
Definition flag_rows (k : nat) (log : list (nat * list Z)) : list (list Z) :=
  map snd (filter (fun r => Nat.eqb (fst r) k) log).

(** Number of events of a type of node [k]. *)
Definition event_count (k : nat) (ty : evtype) (evs : list (Z * (nat * evtype))) : nat :=
  length (filter (fun x => Nat.eqb (fst (snd x)) k && evtype_eqb (snd (snd x)) ty) evs).

Definition sumZ (l : list Z) : Z := fold_right Z.add 0 l.

(** Sizes of successive efficient broadcasts at the given instants. *)
Fixpoint broadcast_sizes (L : Z) (ts : list Z) (last : Z) (instants : list Z) : list Z :=
  match instants with
  | [] => []
  | t :: l => efficient_size L ts last t :: broadcast_sizes L ts t l
  end.
