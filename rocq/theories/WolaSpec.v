(** Specification vocabulary for whole-chunk compression. *)
From Verif Require Import Base Cx ChunkSpec.
From Coq Require Import Reals.
Open Scope R_scope.

(** Block of [2 q] samples of every one of [S] sensors starting at sample
    [m * q]. *)
Definition block_at (S q : nat) (y : nat -> nat -> R) (m : nat) : list (list R) :=
  map (fun s => map (fun j => y s (m * q + j)%nat) (seq 0 (2 * q))) (seq 0 S).

(** Fusion filters that are the same real gains at every frequency; selecting
    one sensor (identity) is the case of one gain 1 and all others 0. *)
Definition flat_filters (q : nat) (gains : list R) : list (list cx) :=
  map (fun g => repeat (cr g) (q + 1)) gains.

(** The weighted sum of the sensors at sample [i]. *)
Definition fused (gains : list R) (y : nat -> nat -> R) (i : nat) : R :=
  sumR (length gains) (fun s => nth s gains 0 * y s i).

Definition nonzero_block (z : list R) : Prop := exists v, In v z /\ v <> 0.
