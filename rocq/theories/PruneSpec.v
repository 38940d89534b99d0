(** Specification vocabulary for pruning (C75). *)
From Verif Require Import Base Prune.
From Coq Require Import Reals.
Local Open Scope nat_scope.

(** [x] is joined to a node of [V] by links of [L], followed in either direction. *)
Inductive joined (L : list (nat * nat)) (V : list nat) : nat -> Prop :=
| j_in x : In x V -> joined L V x
| j_step x y : In (x, y) L \/ In (y, x) L -> joined L V y -> joined L V x.
(** The links of [L] connect all the [n] nodes. *)
Definition connects (n : nat) (L : list (nat * nat)) : Prop := forall r x, r < n -> x < n -> joined L [r] x.
(** Links that an adjacency matrix allows; a network is connected if they connect it. *)
Definition allowed (n : nat) (A : nat -> nat -> bool) (L : list (nat * nat)) : Prop :=
  forall x y, In (x, y) L -> x < n /\ y < n /\ (A x y = true \/ A y x = true).
Definition connected (n : nat) (A : nat -> nat -> bool) : Prop := exists L, allowed n A L /\ connects n L.
(** Adjacent nodes are at different places, or all the nodes are at the same place. *)
Definition places (n : nat) (A : nat -> nat -> bool) (pos : list (list R)) : Prop :=
  all_same_position pos = true \/
  forall i j, i < n -> j < n -> i <> j -> A i j = true -> length (nth i pos []) = length (nth j pos []) /\ nth i pos [] <> nth j pos [].
(** The links of neighbour lists, each once, and the total length of links. *)
Definition links (nb : list (list nat)) : list (nat * nat) :=
  flat_map (fun k => map (fun q => (k, q)) (filter (fun q => k <? q) (nth k nb []))) (seq 0 (length nb)).
Definition total (pos : list (list R)) (L : list (nat * nat)) : R :=
  fold_right Rplus 0%R (map (fun e => euclid (nth (fst e) pos []) (nth (snd e) pos [])) L).
