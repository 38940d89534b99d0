(** Specification vocabulary for trees. *)
From Verif Require Import Base.
Open Scope nat_scope.

(** [p] is a walk along neighbours from [u] to [v] (both included). *)
Fixpoint walk (nbrs : list (list nat)) (u v : nat) (p : list nat) : Prop :=
  match p with
  | [] => False
  | x :: p' =>
    x = u /\ match p' with [] => u = v | y :: _ => In y (nth u nbrs []) /\ walk nbrs y v p' end
  end.

(** A tree on the nodes [0 .. n-1]: symmetric irreflexive neighbour lists
    without repetition, and exactly one path without repeated node between any two nodes. *)
Record is_tree (n : nat) (nbrs : list (list nat)) : Prop := {
  t_len : length nbrs = n;
  t_range : forall k q, k < n -> In q (nth k nbrs []) -> q < n;
  t_irrefl : forall k, k < n -> ~ In k (nth k nbrs []);
  t_nodup : forall k, k < n -> NoDup (nth k nbrs []);
  t_sym : forall k q, k < n -> In q (nth k nbrs []) -> In k (nth q nbrs []);
  t_path : forall u v, u < n -> v < n -> exists p, walk nbrs u v p /\ NoDup p;
  t_unique : forall u v p p', u < n -> v < n ->
    walk nbrs u v p -> NoDup p -> walk nbrs u v p' -> NoDup p' -> p = p'
}.

(** [q] is the next node on the path from [k] to [r]. *)
Definition next_hop (nbrs : list (list nat)) (r k q : nat) : Prop :=
  exists p, NoDup (k :: q :: p) /\ walk nbrs k r (k :: q :: p).

(** Number of hops from [k] to [r]. *)
Definition distance (nbrs : list (list nat)) (r k d : nat) : Prop :=
  exists p, NoDup p /\ walk nbrs k r p /\ length p = S d.
