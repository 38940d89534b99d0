(** Properties C20 and C21: back to the time domain, weighted overlap-add.
    Vocabulary: Cx.v (DFT), WolaSpec.v. *)
From Verif Require Import Base BaseFacts Cx CxFacts ChunkSpec ChunkFacts Wola WolaFacts WolaSpec WolaFacts2.
From Coq Require Import Reals Lra.
Open Scope R_scope.

(** ** C20 *)
(** Round trip: half spectrum of a real frame. *)
Theorem C20_round_trip q (x : list R) :
  (0 < q)%nat -> length x = (2 * q)%nat ->
  let spectrum := map (dft (2 * q) (fun m => cr (nth m x 0))) (seq 0 (q + 1)) in
  back_to_time_domain spectrum (2 * q) = Ok (spectrum, map cr x).
Proof.
  intros Hq Hx spectrum. unfold spectrum.
  refine (eq_trans (back_half q (fun m => cr (nth m x 0)) Hq (fun _ _ => eq_refl)) _).
  f_equal. f_equal. apply nth_ext with (d := czero) (d' := cr 0); [rewrite !map_length, seq_length; lia|].
  intros i Hi. rewrite map_length, seq_length in Hi. rewrite nth_map_seq by exact Hi. symmetry. apply map_nth.
Qed.

(** Any half spectrum: the caller's array only changes in its first and last
    entries, which lose their imaginary part; the result is real and its
    spectrum is the (changed) array. *)
Theorem C20_real_result q (x : list cx) :
  (0 < q)%nat -> length x = (q + 1)%nat ->
  exists x' out, back_to_time_domain x (2 * q) = Ok (x', out) /\
    length x' = length x /\
    (forall i, (i <= q)%nat -> nth i x' czero =
       if Nat.eqb i 0 || Nat.eqb i q then cr (re (nth i x czero)) else nth i x czero) /\
    length out = (2 * q)%nat /\ Forall (fun v => im v = 0) out /\
    forall k, (k <= q)%nat -> dft (2 * q) (fun m => nth m out czero) k = nth k x' czero.
Proof.
  intros Hq Hx. eexists. eexists. split; [apply back_ok; assumption|]. split; [apply real_ends_length|]. split.
  - intros i Hi. rewrite real_ends_nth by lia. replace (length x - 1)%nat with q by lia. reflexivity.
  - split; [rewrite map_length, seq_length; reflexivity|]. split.
    + apply Forall_forall. intros v Hv. apply in_map_iff in Hv. destruct Hv as [m [<- _]]. apply back_real; assumption.
    + intros k Hk. rewrite (dft_ext (2 * q) _ (idft (2 * q) (fun k => nth k (full_of (real_ends x)) czero))).
      * rewrite dft_idft by lia. apply full_low. rewrite real_ends_length. lia.
      * intros m Hm. apply nth_map_seq. exact Hm.
Qed.

Theorem C20_rejects x n :
  back_to_time_domain x n = Err ValueError <-> ((2 * length x)%nat <> (n + 2)%nat \/ n = 0%nat).
Proof. exact (back_err x n). Qed.

Example C20_example :
  back_to_time_domain [mkC 3 7; mkC 1 5] 2 = Ok ([cr 3; cr 1], [cr 2; cr 1]) /\
  back_to_time_domain [cr 1; cr 1; cr 1] 5 = Err ValueError.
Proof.
  split; [|reflexivity]. refine (eq_trans (back_ok [mkC 3 7; mkC 1 5] 1 eq_refl (Nat.lt_0_succ 0)) _). f_equal. f_equal.
  cbn [map seq Nat.mul Nat.add]. unfold idft. simpl csum.
  repeat f_equal; apply cx_eq; simpl;
    rewrite ?Rmult_0_r, ?Rmult_0_l, ?Rmult_1_r; unfold Rdiv; rewrite ?Rmult_0_l, ?cos_0, ?sin_0;
    replace (2 * PI * / (1 + 1)) with PI by field; rewrite ?cos_PI, ?sin_PI; lra.
Qed.

(** ** C21 *)
(** Fifty percent overlap ([2 q] samples per frame, hop [q]), equal analysis and
    synthesis windows, constant real fusion gains: the [q] samples broadcast at
    hop [m >= 1] are the fused input samples [m q, ..., m q + q - 1].  At the
    first hop they carry the squared window.  The second alternative of the last
    hypothesis is needed where the window vanishes: see the refutation below. *)
Theorem C21_reconstruction q (h gains : list R) (y : nat -> nat -> R) count :
  (0 < q)%nat -> length h = (2 * q)%nat ->
  exists blocks,
    compress_run (2 * q) q h h (fun _ => flat_filters q gains) (block_at (length gains) q y) count 0 [] = Ok blocks /\
    length blocks = count /\
    (forall j, (0 < count)%nat -> (j < q)%nat ->
       nth j (nth 0 blocks []) 0 = nth j h 0 * nth j h 0 * fused gains y j) /\
    forall m j, (1 <= m < count)%nat -> (j < q)%nat ->
      nth (q + j) h 0 * nth (q + j) h 0 + nth j h 0 * nth j h 0 <> 0 ->
      nth (q + j) h 0 <> 0 \/ nonzero_block (nth (m - 1) blocks []) ->
      nth j (nth m blocks []) 0 = fused gains y (m * q + j).
Proof. exact (fun H1 H2 => run_reconstructs q h h gains y H1 H2 count eq_refl). Qed.

(** In particular any window without zeros reconstructs everything. *)
Theorem C21_reconstruction_positive_window q (h gains : list R) (y : nat -> nat -> R) count :
  (0 < q)%nat -> length h = (2 * q)%nat -> Forall (fun v => v <> 0) h ->
  exists blocks,
    compress_run (2 * q) q h h (fun _ => flat_filters q gains) (block_at (length gains) q y) count 0 [] = Ok blocks /\
    length blocks = count /\
    forall m j, (1 <= m < count)%nat -> (j < q)%nat -> nth j (nth m blocks []) 0 = fused gains y (m * q + j).
Proof.
  intros Hq Hh Hpos. destruct (C21_reconstruction q h gains y count Hq Hh) as [bs [E [L [_ H]]]].
  exists bs. split; [exact E|]. split; [exact L|]. intros m j Hm Hj.
  assert (N : nth (q + j) h 0 <> 0) by (rewrite Forall_forall in Hpos; apply Hpos, nth_In; lia).
  apply H; [exact Hm | exact Hj | nra | left; exact N].
Qed.

(** The square-root Hann window of four samples (np.hanning(4) = 0, 3/4, 3/4, 0):
    after a silent block the normalisation is skipped and a sample comes out
    scaled by 3/4. *)
Definition hann4 : list R := [0; sqrt (3/4); sqrt (3/4); 0].
Definition c21_signal (s i : nat) : R := if Nat.eqb i 3 then 1 else 0.
Theorem C21_after_silence_refuted :
  exists blocks,
    compress_run 4 2 hann4 hann4 (fun _ => flat_filters 2 [1]) (block_at 1 2 c21_signal) 2 0 [] = Ok blocks /\
    fused [1] c21_signal (1 * 2 + 1) = 1 /\
    nth 1 (nth 1 blocks []) 0 = 3 / 4.
Proof.
  destruct (run_blocks 2 hann4 hann4 [1] c21_signal ltac:(lia) eq_refl 2 0 [] (or_intror eq_refl)) as [bs [E [L H]]].
  exists bs. split; [exact E|]. split; [unfold fused, c21_signal; simpl; lra|].
  destruct (H 0%nat ltac:(lia)) as [L0 [H02 H01]]. destruct (H 1%nat ltac:(lia)) as [_ [_ H1]].
  assert (S : sqrt (3/4) * sqrt (3/4) = 3/4) by (apply sqrt_sqrt; lra).
  assert (Z : all_zero (nth 0 bs []) = true).
  { apply all_zero_true. intros v Hv. apply (In_nth _ _ 0) in Hv. destruct Hv as [j [Hj <-]]. rewrite L0 in Hj.
    destruct j as [|[|[|[|j]]]]; [| | | |lia].
    - rewrite H01 by lia. cbn [nth all_zero forallb]. unfold hann4, fused, c21_signal; simpl. lra.
    - rewrite H01 by lia. cbn [nth all_zero forallb]. unfold hann4, fused, c21_signal; simpl. lra.
    - rewrite H02 by lia. unfold hann4, fused, c21_signal; simpl. lra.
    - rewrite H02 by lia. unfold hann4, fused, c21_signal; simpl. lra. }
  rewrite (H1 1%nat) by lia. cbn [nth]. cbv zeta. rewrite Z. unfold hann4, fused, c21_signal; simpl. lra.
Qed.

(** Three hops or more per frame: the second non-silent broadcast raises. *)
Theorem C21_three_hops_fail q Ns h f w yq prev :
  (0 < q)%nat -> (0 < Ns)%nat -> (3 <= 2 * q / Ns)%nat -> length h = (2 * q)%nat -> length prev = (2 * q)%nat ->
  nonzero_block prev ->
  compress_whole_chunk (2 * q) Ns h f w yq prev = Err ValueError.
Proof. exact (fun a b c d e g => whole_many_overlaps q Ns h f w yq prev a b c d e (all_zero_false prev g)). Qed.

(** So does a hop equal to the frame (no overlap). *)
Theorem C21_no_overlap_fails q h f w yq prev :
  (0 < q)%nat -> length prev = (2 * q)%nat -> nonzero_block prev ->
  compress_whole_chunk (2 * q) (2 * q) h f w yq prev = Err ValueError.
Proof. exact (fun a b c => whole_no_overlap q h f w yq prev a b (all_zero_false prev c)). Qed.

Example C21_example :
  exists blocks,
    compress_run 4 2 [1; 2; 2; 1] [1; 2; 2; 1] (fun _ => flat_filters 2 [1; -1]) (block_at 2 2 (fun s i => INR (s * i * i))) 3 0 [] = Ok blocks /\
    nth 0 (nth 2 blocks []) 0 = -16 /\ nth 1 (nth 2 blocks []) 0 = -25.
Proof.
  destruct (C21_reconstruction_positive_window 2 [1; 2; 2; 1] [1; -1] (fun s i => INR (s * i * i)) 3) as [bs [E [_ H]]];
    [lia | reflexivity | repeat constructor; lra |].
  exists bs. split; [exact E|]. split; rewrite H by lia; unfold fused; simpl; lra.
Qed.

Print Assumptions C20_round_trip.
Print Assumptions C20_real_result.
Print Assumptions C20_rejects.
Print Assumptions C21_reconstruction.
Print Assumptions C21_reconstruction_positive_window.
Print Assumptions C21_after_silence_refuted.
Print Assumptions C21_three_hops_fail.
Print Assumptions C21_no_overlap_fails.
