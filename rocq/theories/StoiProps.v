(** Removal of silent frames before the intelligibility measure (C55). *)
From Verif Require Import Base BaseFacts ChunkSpec Level Stoi StoiSpec StoiFacts.
From Coq Require Import Reals Lra Sorted.
Local Open Scope R_scope.

(** The same frames are kept in both signals: those whose windowed level in the clean
    signal is within [dyn] decibels of all others; both outputs have the same length and
    are the overlap-add of exactly those frames. *)
Theorem C55_same_frames_in_both : forall x y dyn L h xs ys,
  remove_silent_frames x y dyn L h = Ok (xs, ys) ->
  exists kept, loud_frames x dyn L h kept /\
    Z.of_nat (length xs) = ((Z.of_nat (length kept) - 1) * Z.of_nat h + Z.of_nat L)%Z /\ length ys = length xs /\
    (forall n, (n < length xs)%nat -> nth n xs 0 = overlapped x L h kept n) /\
    (forall n, (n < length ys)%nat -> nth n ys 0 = overlapped y L h kept n).
Proof. intros x y dyn L h xs ys H. apply remove_spec in H as (kept & _ & A & _ & B). exists kept. now split. Qed.

(** It succeeds for signals of equal length, longer than a frame; and with a positive
    dynamic range at least one frame is kept. *)
Theorem C55_succeeds : forall x y dyn L h,
  (0 < h)%nat -> (h <= L)%nat -> (L < length x)%nat -> length y = length x ->
  exists xs ys, remove_silent_frames x y dyn L h = Ok (xs, ys) /\ (0 < dyn -> (L <= length xs)%nat).
Proof.
  intros x y dyn L h Hh HL Hx Hy. destruct (remove_ok x y dyn L h Hh HL Hx Hy) as (xs & ys & E). exists xs, ys. split; [exact E|].
  intros Hd. destruct (C55_same_frames_in_both _ _ _ _ _ _ _ E) as (kept & Hk & Hl & _).
  pose proof (loudest_kept _ _ _ _ _ Hh Hx Hd Hk). destruct kept; [congruence|]. cbn [length] in Hl. nia.
Qed.

(** A signal not longer than a frame is refused. *)
Theorem C55_too_short : forall x y dyn L h, (length x <= L)%nat -> remove_silent_frames x y dyn L h = Err ValueError.
Proof.
  intros x y dyn L h H. unfold remove_silent_frames. destruct (Nat.eqb_spec h 0) as [|Hh]; [reflexivity|].
  destruct (Nat.eqb_spec (n_frames (length x) L h) 0) as [|Hn]; [reflexivity|].
  assert (A : is_frame (length x) L h 0) by (apply n_frames_spec; lia). unfold is_frame in A. lia.
Qed.

(** Nothing dropped, hop of half a frame: where two windows overlap, both signals are
    reproduced up to one common gain, which differs from 1 by at most [pi / (2 (L + 1))]
    (less than 0.7 percent for the frames of 256 samples in use). *)
Theorem C55_nothing_dropped : forall x y dyn h xs ys,
  remove_silent_frames x y dyn (2 * h) h = Ok (xs, ys) ->
  (forall j k, is_frame (length x) (2 * h) h j -> is_frame (length x) (2 * h) h k -> level x (2 * h) (j * h) - dyn < level x (2 * h) (k * h)) ->
  forall n, (h <= n)%nat -> (n + h < length xs)%nat ->
  exists g, Rabs (g - 1) <= PI / (2 * INR (2 * h + 1)) /\ nth n xs 0 = g * nth n x 0 /\ nth n ys 0 = g * nth n y 0.
Proof.
  intros x y dyn h xs ys E Hall n Hn Hn'. apply remove_spec in E as (kept & Hh & Hl & Ek & Hlen & Hy & Hxs & Hys).
  assert (Eseq : kept = seq 0 (n_frames (length x) (2 * h) h)).
  { rewrite Ek. apply filter_all. intros k Hk. assert (In k kept) as Hin.
    { apply Hl. apply in_seq in Hk. assert (is_frame (length x) (2 * h) h k) by (apply n_frames_spec; lia). split; [assumption|]. intros j Hj. now apply Hall. }
    rewrite Ek in Hin. now apply filter_In in Hin. }
  assert (Hnf : (n < n_frames (length x) (2 * h) h * h)%nat) by (rewrite Eseq, seq_length in Hlen; nia).
  exists (hann (2 * h) (n mod h) + hann (2 * h) (n mod h + h)). split; [apply hann_gain|].
  rewrite Hxs by lia. rewrite Hys by lia. rewrite Eseq. split; apply overlapped_all; lia.
Qed.

(** The common gain is not 1: frames of two samples, a constant signal. *)
Theorem C55_exact_reproduction_refuted : exists x xs ys,
  remove_silent_frames x x 40 2 1 = Ok (xs, ys) /\
  (forall j k, is_frame (length x) 2 1 j -> is_frame (length x) 2 1 k -> level x 2 (j * 1) - 40 < level x 2 (k * 1)) /\
  (1 + 1 < length xs)%nat /\ nth 1 xs 0 <> nth 1 x 0.
Proof.
  set (x := [1; 1; 1; 1; 1]).
  destruct (remove_ok x x 40 2 1) as (xs & ys & E); [lia|lia|cbn; lia|reflexivity|]. exists x, xs, ys. split; [exact E|].
  assert (Hlev : forall j, is_frame (length x) 2 1 j -> level x 2 (j * 1) = level x 2 0).
  { intros j Hj. unfold is_frame in Hj. cbn in Hj. destruct j as [|[|[|j]]]; [reflexivity| | |lia]; unfold level, x; cbn [Nat.mul Nat.add sumR nth]; reflexivity. }
  assert (Hall : forall j k, is_frame (length x) 2 1 j -> is_frame (length x) 2 1 k -> level x 2 (j * 1) - 40 < level x 2 (k * 1)).
  { intros j k Hj Hk. rewrite (Hlev j), (Hlev k) by assumption. lra. }
  split; [exact Hall|].
  apply remove_spec in E as (kept & _ & Hl & Ek & Hlen & Hy & Hxs & Hys).
  assert (Eseq : kept = [0; 1; 2]%nat).
  { rewrite Ek. change (n_frames (length x) 2 1) with 3%nat. apply (filter_all _ [0; 1; 2]%nat). intros k Hk. assert (In k kept) as Hin.
    { apply Hl. assert (is_frame (length x) 2 1 k) by (unfold is_frame; cbn in *; lia). split; [assumption|]. intros j Hj. now apply Hall. }
    rewrite Ek in Hin. now apply filter_In in Hin. }
  rewrite Eseq in *. cbn [length] in Hlen. split; [lia|]. rewrite Hxs by lia.
  pose proof (overlapped_all x 1 3 1 ltac:(lia) ltac:(lia) ltac:(lia)) as Ho. change (2 * 1)%nat with 2%nat in Ho. change (seq 0 3) with [0; 1; 2]%nat in Ho. rewrite Ho.
  change (1 mod 1)%nat with 0%nat. cbn [Nat.add nth x]. unfold hann. cbn [Nat.add INR].
  replace (2 * PI * 1 / (1 + 1 + 1)) with (2 * (PI / 3)) by field. replace (2 * PI * (1 + 1) / (1 + 1 + 1)) with (PI / 3 + PI) by field.
  rewrite neg_cos, cos_2a, cos_PI3, sin_PI3. 
  assert (S3 : sqrt 3 * sqrt 3 = 3) by (apply sqrt_sqrt; lra). intros F. nra.
Qed.

(** A loud frame and silence: with a range of 40 dB the silent frames disappear from both. *)
Example C55_example : exists xs ys, remove_silent_frames [1; 1; 1; 0; 0; 0] [5; 6; 7; 8; 9; 10] 40 2 1 = Ok (xs, ys) /\ length xs = length ys.
Proof. destruct (C55_succeeds [1; 1; 1; 0; 0; 0] [5; 6; 7; 8; 9; 10] 40 2 1) as (xs & ys & E & _); [lia|lia|cbn; lia|reflexivity|]. exists xs, ys. split; [exact E|]. apply C55_same_frames_in_both in E as (k & _ & _ & H & _). now symmetry. Qed.

Print Assumptions C55_same_frames_in_both.
Print Assumptions C55_succeeds.
Print Assumptions C55_too_short.
Print Assumptions C55_nothing_dropped.
Print Assumptions C55_exact_reproduction_refuted.
