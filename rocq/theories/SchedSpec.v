(** Specification vocabulary for event schedules.  Nothing here refers to the
    scheduler's own code; only to the data it takes and returns. *)
From Verif Require Import Base Sched.
Open Scope Z_scope.

(** What theorems assume of numpy's [argsort] applied to the instants: some
    reordering of the rows with non-decreasing instants (ties in any order). *)
Definition is_argsort (tsort : list event -> list event) : Prop :=
  forall l, Permutation (tsort l) l /\
            StronglySorted (fun a b => ev_t a <= ev_t b) (tsort l).

(** Instant [t] is listed for node [k]. *)
Definition listed (ts : list (list Z)) (k : nat) (t : Z) : Prop :=
  exists l, nth_error ts k = Some l /\ In t l.

(** Event of type [ty] of node [k] occurs at instant [t] in the schedule. *)
Definition scheduled (s : list instant) (t : Z) (k : nat) (ty : evtype) : Prop :=
  exists i, In i s /\ in_t i = t /\ In (k, ty) (in_evs i).

(** An instant carries an update event (bypassed or not). *)
Definition carries_up (i : instant) : bool :=
  existsb (fun e => match snd e with Up => true | _ => false end) (in_evs i).

(** Nodes whose filter update actually takes place at an instant. *)
Definition performed (i : instant) : list nat :=
  map (fun p => fst (fst p))
      (filter (fun p => match snd (fst p) with Up => negb (snd p) | _ => false end)
              (combine (in_evs i) (in_byp i))).

(** All performed updates of a schedule, in time order. *)
Definition updates (s : list instant) : list nat := flat_map performed s.

(** Performed updates with their instants. *)
Definition timed_updates (s : list instant) : list (Z * nat) :=
  flat_map (fun i => map (fun k => (in_t i, k)) (performed i)) s.

(** Number of update-carrying instants since the last performing one, for a
    history given most recent first. *)
Fixpoint idle (past : list instant) : Z :=
  match past with
  | [] => 0
  | i :: past' =>
    match performed i with
    | _ :: _ => 0
    | [] => (if carries_up i then 1 else 0) + idle past'
    end
  end.

Definition count_up (s : list instant) : Z := Z.of_nat (length (filter carries_up s)).

(** [k] belongs to level [l] of an ordering (level 0 = deepest leaves). *)
Definition at_level (o : ordering) (k l : nat) : Prop :=
  exists lvl, nth_error o l = Some lvl /\ In k lvl.

(** Processing order in a fully connected network. *)
Definition fc_before (a b : nat * evtype) : Prop :=
  evcode (snd a) < evcode (snd b) \/
  (snd a = snd b /\ (fst a <= fst b)%nat).

(** Processing order along a tree: by type; then leaves to root for the
    downstream types and root to leaves for the upstream ones; then by index. *)
Definition ti_before (o : ordering) (a b : nat * evtype) : Prop :=
  evcode (snd a) < evcode (snd b) \/
  (snd a = snd b /\
   forall la lb, at_level o (fst a) la -> at_level o (fst b) lb ->
     match snd a with
     | Tr | Fu | Bc => (la < lb)%nat
     | Re | Up => (lb < la)%nat
     end \/ (la = lb /\ (fst a <= fst b)%nat)).

(** Number of distinct tree-formation instants up to (and including) [t]. *)
Definition formed_until (tr : list (list Z)) (t : Z) : nat :=
  length (nodup Z.eq_dec (filter (fun u => u <=? t) (concat tr))).

(** Number of tree formations executed up to (and including) instant [t]:
    the counter by which the run selects the tree in use. *)
Definition trees_formed (s : list instant) (t : Z) : nat :=
  length (filter (fun e => match snd e with Tr => true | _ => false end)
                 (flat_map in_evs (filter (fun i => in_t i <=? t) s))).

(** Event [e] is asked for by the given instant lists; fusion, relay and tree
    formation only exist when the network is not fully connected ([ti]). *)
Definition requested (ti : bool) (up bc fuse re tr : list (list Z)) (e : event) : Prop :=
  (ev_node e < length up)%nat /\
  match ev_type e with
  | Up => listed up (ev_node e) (ev_t e)
  | Bc => listed bc (ev_node e) (ev_t e)
  | Fu => ti = true /\ listed fuse (ev_node e) (ev_t e)
  | Re => ti = true /\ listed re (ev_node e) (ev_t e)
  | Tr => ti = true /\ listed tr (ev_node e) (ev_t e)
  end.

(** The schedule is exactly what was asked for: increasing instants, no empty
    instant, no repeated event, and an event iff it was requested. *)
Definition exact_schedule (ti : bool) (up bc fuse re tr : list (list Z)) (s : list instant) : Prop :=
  StronglySorted Z.lt (map in_t s) /\
  (forall i, In i s -> in_evs i <> [] /\ NoDup (in_evs i) /\ length (in_byp i) = length (in_evs i)) /\
  (forall t k ty, scheduled s t k ty <-> requested ti up bc fuse re tr (mkEv t k ty)).

(** The ordering lists every one of the [n] nodes exactly once. *)
Definition full_ordering (n : nat) (o : ordering) : Prop := Permutation (concat o) (seq 0 n).

(** The scheduler treats the network as a tree iff fusion instants are given. *)
Definition tree_mode (up fuse : list (list Z)) : Prop :=
  length fuse = length up /\ exists l, In l fuse /\ l <> [].

Definition full_if_tree (up fuse : list (list Z)) (os : list ordering) : Prop :=
  tree_mode up fuse -> forall o, In o os -> full_ordering (length up) o.
