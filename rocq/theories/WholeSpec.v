(** Specification vocabulary for whole-chunk broadcasts (C70). *)
From Verif Require Import Base Sched Buffers ChunkSpec Cx Online OnlineSpec OutSpec DistSpec.
From Coq Require Import Reals.
Local Open Scope R_scope.

(** [x] is the frame of node [k] ending before sample [e], of [2 q] samples, fused with the
    external filter of iteration [i]. *)
Definition fused_frame (c : ocfg) (y : list (list (list R))) (q k i : nat) (e : Z) (x : nat -> R) : Prop :=
  filtered q (o_h c) (o_ext c k i) (length (nth k y [])) (frame_of y k (2 * q) e) x.

(** Chunk of a node in a state: that of its latest broadcast. *)
Definition chunk (s : ostate R) (k : nat) : list R := nth k (os_zl s) [].
Definition silent (z : list R) : Prop := forall v, In v z -> v = 0.

(** No broadcast of [k] among the events number [a], ..., [b - 1]. *)
Definition no_broadcast (k : nat) (evs : list (Z * (nat * evtype))) (a b : nat) : Prop :=
  forall m te, (a <= m < b)%nat -> nth_error evs m = Some te -> is_bc k te = false.

(** Sample [n] of the signals of node [k], added up with the gains [g]. *)
Definition mixed (y : list (list (list R))) (k : nat) (g : nat -> R) (n : Z) : R :=
  sumR (length (nth k y [])) (fun ch => g ch * sample 0 (nth ch (nth k y []) []) n).

(** Gain at which sample [n] is sent with analysis window [h] of [2 q] samples: that of the
    two windows in the first hop, one afterwards. *)
Definition start_gain (h : list R) (q : nat) (n : Z) : R :=
  if (n <? Z.of_nat q)%Z then nth (Z.to_nat n) h 0 * nth (Z.to_nat n) h 0 else 1.
