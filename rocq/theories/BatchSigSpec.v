(** Specification vocabulary for batch DANSE: network-wide filters and the
    estimated mean squared error of their outputs, at one frequency. *)
From Verif Require Import Base Cx Batch Ext.
From Coq Require Import Reals.
Open Scope R_scope.

(** Average over the frames [t < n] whose VAD decision is [b]. *)
Definition is_kind (v : list bool) (b : bool) (t : nat) : bool := Bool.eqb (nth t v (negb b)) b.
Definition n_kind (v : list bool) (b : bool) (n : nat) : nat := length (filter (is_kind v b) (seq 0 n)).
Definition avg_over (v : list bool) (b : bool) (n : nat) (x : nat -> cx) : cx :=
  (cr (/ INR (n_kind v b n)) * csum n (fun t => if is_kind v b t then x t else czero))%cx.

(** Estimate of the mean squared error between an output [o] and the speech part
    of the reference signal [d], from what can be observed: the correlation of
    speech and output is the correlation of reference and output over the speech
    frames minus that over the noise frames,
    [E|s - o|^2 = E|o|^2 - 2 Re E(o conj s) + E|s|^2]. *)
Definition sq (z : cx) : R := re z * re z + im z * im z.
Definition est_error (v : list bool) (n : nat) (o d : nat -> cx) : R :=
  re (avg_over v true n (fun t => cr (sq (o t))))
  - 2 * re (avg_over v true n (fun t => o t * conj (d t)) - avg_over v false n (fun t => o t * conj (d t)))%cx
  + re (avg_over v true n (fun t => cr (sq (d t))) - avg_over v false n (fun t => cr (sq (d t))))%cx.

(** A network-wide filter has a coefficient for every node and sensor; its output. *)
Definition nfilter := nat -> nat -> cx.
Section Net.
  Variables (nn : nat) (ms : nat -> nat) (y : nat -> nat -> nat -> cx).  (* node, frame, sensor *)
  Definition output (w : nfilter) (t : nat) : cx := csum nn (fun q => csum (ms q) (fun m => conj (w q m) * y q t m)%cx).
  Definition error (v : list bool) (n k ref : nat) (w : nfilter) : R := est_error v n (output w) (fun t => y k t ref).
  (** filters that use the sensors of node [k] only *)
  Definition own_only (k : nat) (w : nfilter) : Prop := forall q m, q <> k -> w q m = czero.

  (** Correlation of the speech parts of two sensors (speech-plus-noise minus noise). *)
  Definition speech_corr (v : list bool) (n q m q' m' : nat) : cx :=
    (avg_over v true n (fun t => y q t m * conj (y q' t m')) - avg_over v false n (fun t => y q t m * conj (y q' t m')))%cx.
  (** A single desired source of power [p] that reaches sensor [m] of node [q] with
      the transfer function [s q m]. *)
  Definition single_source (v : list bool) (n : nat) (p : R) (s : nat -> nat -> cx) : Prop :=
    forall q m q' m', (q < nn)%nat -> (m < ms q)%nat -> (q' < nn)%nat -> (m' < ms q')%nat ->
      speech_corr v n q m q' m' = (cr p * (s q m * conj (s q' m')))%cx.
End Net.

(** Position of [q] in a list. *)
Fixpoint index_of (q : nat) (l : list nat) : option nat :=
  match l with [] => None | a :: l' => if Nat.eqb a q then Some O else option_map S (index_of q l') end.
(** Network-wide filter of node [k]: its own coefficients [w 0 .. w (ms k - 1)]; a
    neighbour's sensors count through the signal it sends, fused by its external
    filter [e q], and weighted by node [k].  In TI-DANSE node [k] weighs the sum of
    all the others' fused signals by [w (ms k)]; node [q] fuses by its filter divided
    by the last coefficient. *)
Definition netwide (ti : bool) (ms : nat -> nat) (nbrs : nat -> list nat) (k : nat) (w : nat -> cx) (e : nat -> nat -> cx) : nfilter :=
  fun q m =>
    if Nat.eqb q k then w m
    else if ti then (w (ms k) * (e q m * cinv (e q (ms q))))%cx
    else match index_of q (nbrs k) with Some i => (w (ms k + i)%nat * e q m)%cx | None => czero end.
Definition others (nn k : nat) : list nat := filter (fun q => negb (Nat.eqb q k)) (seq 0 nn).

(** Usable data: every node has its reference sensor and [n] frames, a VAD that
    covers them, and frames of both kinds. *)
Definition data_ok (nn : nat) (ms : nat -> nat) (ys : nat -> list (nat -> nat -> cx)) (vads : nat -> list bool) (ref n : nat) : Prop :=
  forall k, (k < nn)%nat -> (ref < ms k)%nat /\ length (ys k) = n /\ (n <= length (vads k))%nat /\
    (0 < n_kind (vads k) true n)%nat /\ (0 < n_kind (vads k) false n)%nat.
(** Neighbours of [k]: other nodes, each once. *)
Definition good_nbrs (nn : nat) (nbrs : nat -> list nat) (k : nat) : Prop :=
  NoDup (nbrs k) /\ (forall q, In q (nbrs k) -> (q < nn)%nat) /\ ~ In k (nbrs k).

(** Internal (full) and external filter of a node at iteration [j] of a run. *)
Definition int_filter (bs : list (bnode coefs coefs)) (j k : nat) : coefs :=
  match nth_error bs k with Some b => nth j (b_w b) (fun _ _ => czero) | None => fun _ _ => czero end.
Definition ext_filter (bs : list (bnode coefs coefs)) (j k : nat) : coefs :=
  match nth_error bs k with Some b => nth j (b_ext b) (fun _ _ => czero) | None => fun _ _ => czero end.
Definition ext_filters (nn : nat) (bs : list (bnode coefs coefs)) (j : nat) : list coefs := map (ext_filter bs j) (seq 0 nn).
(** Nodes before the first iteration, with room for the filters of [iters]. *)
Definition ready (iters : nat) (bs : list (bnode coefs coefs)) : Prop :=
  forall b, In b bs -> b_i b = 0%nat /\ (iters < length (b_w b))%nat /\ (iters < length (b_ext b))%nat.
