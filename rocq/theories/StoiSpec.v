(** Specification vocabulary for the removal of silent frames. *)
From Verif Require Import Base ChunkSpec.
From Coq Require Import Reals Sorted.
Local Open Scope R_scope.

(** Hann window without its zero end points *)
Definition hann (L j : nat) : R := (1 - cos (2 * PI * INR (j + 1) / INR (L + 1))) / 2.
(** level in decibels of the windowed frame of [L] samples from [i] on *)
Definition level (x : list R) (L i : nat) : R :=
  20 * (ln (sqrt (sumR L (fun j => (hann L j * nth (i + j) x 0) ^ 2)) + / 2 ^ 52) / ln 10).
(** frame [k] starts at [k * h]; the frames are those that end before the last sample *)
Definition is_frame (len L h k : nat) : Prop := (k * h + L < len)%nat.
(** the frames within [dyn] decibels of every frame, in increasing order *)
Definition loud_frames (x : list R) (dyn : R) (L h : nat) (kept : list nat) : Prop :=
  StronglySorted lt kept /\
  forall k, In k kept <-> is_frame (length x) L h k /\ forall j, is_frame (length x) L h j -> level x L (j * h) - dyn < level x L (k * h).
(** overlap-add at hop [h] of the windowed frames [kept] of [x] *)
Definition overlapped (x : list R) (L h : nat) (kept : list nat) (n : nat) : R :=
  sumR (length kept) (fun i =>
    if (i * h <=? n)%nat && (n <? i * h + L)%nat then hann L (n - i * h) * nth (nth i kept 0%nat * h + (n - i * h)) x 0 else 0).
