(** Theorems about the online resampler (C43) and the alignment of the channels fed to
    the offset estimator (C60). *)
From Verif Require Import Base BaseFacts ChunkSpec Cx Dxcp DxcpFacts Resamp ResampSpec ResampFacts ResampFacts2 ResampFacts3.
From Coq Require Import Reals Lra.
Local Open Scope R_scope.

(** ** C43 *)
(** Whatever the blocks and the offsets: one output block per input block, read from a
    range of two blocks inside the input buffer of four. *)
Theorem C43_total_in_range : forall B inputs, (forall b sro sto, In (b, sro, sto) inputs -> length b = B) ->
  exists outs st', rs_run B (rs_new B) inputs = Ok (outs, st') /\ length outs = length inputs /\
    (forall o s e, In (o, (s, e)) outs -> length o = B /\ (0 <= s)%Z /\ (e = s + 2 * Z.of_nat B)%Z /\ (e <= 4 * Z.of_nat B)%Z).
Proof.
  intros B inputs H. destruct (run_total B inputs H (rs_new B) (wf_new B)) as (outs & st' & E & _ & L & G). exists outs, st'. split; [exact E|]. split; assumption.
Qed.
(** The accumulated shift stays within one block. *)
Theorem C43_shift_bounded : forall B inputs outs st', (0 < B)%nat -> (forall b sro sto, In (b, sro, sto) inputs -> length b = B /\ sto = 0) ->
  rs_run B (rs_new B) inputs = Ok (outs, st') -> - INR B - 1 / 2 <= r_shift st' <= INR B - 1 / 2.
Proof.
  intros B inputs outs st' HB H E. refine (run_shift B inputs HB _ _ (rs_new B) outs st' (wf_new B) _ E); [intros ? ? ? Hi; apply (H _ _ _ Hi) | intros ? ? ? Hi; apply (H _ _ _ Hi)|].
  cbn. assert (1 <= INR B) by (change 1 with (INR 1); apply le_INR; lia). lra.
Qed.
(** Any rate and time offsets: block [k] of the output is the end of the segment read for
    the block before plus the beginning of the segment read for this one; each segment is read,
    by band-limited interpolation, at the sum of the rate offsets so far and the time offset,
    two blocks late (as long as the nearest integers stay within one block). *)
Theorem C43_resampling B (inp : list (list R * R * R)) (r : nat -> Z) : (0 < B)%nat -> (forall b u v, In (b, u, v) inp -> length b = B) ->
  let x := concat (map (fun p => fst (fst p)) inp) in
  let sro := fun k => nth k (map (fun p => snd (fst p)) inp) 0 in
  let sto := fun k => nth k (map snd inp) 0 in
  let a := fun k => sumR (S k) (fun i => sro i * / 1000000 * INR B) + sto k in
  (forall k, (k < length inp)%nat -> nearest (a k) (r k) /\ (- Z.of_nat B <= r k < Z.of_nat B)%Z) ->
  exists outs st', rs_run B (rs_new B) inp = Ok (outs, st') /\ length outs = length inp /\
    forall k n, (k < length inp)%nat -> (n < B)%nat -> length (fst (nth k outs ([], (0, 0)%Z))) = B /\
      nth n (fst (nth k outs ([], (0, 0)%Z))) 0 =
        (match k with O => 0 | S j => read_segment B x ((Z.of_nat j - 2) * Z.of_nat B + r j) (INR (B + n) + (a j - IZR (r j))) end)
        + read_segment B x ((Z.of_nat k - 2) * Z.of_nat B + r k) (INR n + (a k - IZR (r k))).
Proof. exact (run_frac B inp r). Qed.
(** Whole numbers of samples are read exactly. *)
Theorem C43_whole_samples : forall B x start n, (0 < B)%nat -> (n < 2 * B)%nat -> read_segment B x start (INR n) = fade B n * sample_at x (start + Z.of_nat n).
Proof. exact read_integer. Qed.
(** So if the time offset jumps, the output fades from the old to the new delay within one
    block, starting from the old one. *)
Theorem C43_crossfade B (blocks : list (list R)) (r : list Z) : (0 < B)%nat -> (forall bl, In bl blocks -> length bl = B) -> length r = length blocks ->
  (forall m, In m r -> (- Z.of_nat B <= m < Z.of_nat B)%Z) ->
  exists outs st', rs_run B (rs_new B) (map (fun p => (fst p, 0, IZR (snd p))) (combine blocks r)) = Ok (outs, st') /\
    forall k n, (S k < length blocks)%nat -> (n < B)%nat ->
      nth n (fst (nth (S k) outs ([], (0, 0)%Z))) 0 =
        (1 - fade B n) * sample_at (concat blocks) ((Z.of_nat (S k) - 2) * Z.of_nat B + nth k r 0%Z + Z.of_nat n)
        + fade B n * sample_at (concat blocks) ((Z.of_nat (S k) - 2) * Z.of_nat B + nth (S k) r 0%Z + Z.of_nat n).
Proof.
  intros HB Hb Hr Hm. set (inp := map _ _). assert (Li : length inp = length blocks) by (unfold inp; rewrite map_length, combine_length; lia).
  assert (E1 : map (fun p => fst (fst p)) inp = blocks). { unfold inp. rewrite map_map. cbn. clear -Hr. revert r Hr. induction blocks as [|b l IH]; intros [|m r] H; try discriminate; [reflexivity|]. cbn. f_equal. apply IH. cbn in H. lia. }
  assert (E2 : map snd inp = map IZR r). { unfold inp. rewrite map_map. cbn. clear -Hr. revert r Hr. induction blocks as [|b l IH]; intros [|m r] H; try discriminate; [reflexivity|]. cbn. f_equal. apply IH. cbn in H. lia. }
  assert (E3 : forall k, nth k (map (fun p => snd (fst p)) inp) 0 = 0). { intros k. unfold inp. rewrite map_map. cbn. generalize (combine blocks r). intros l. revert k. induction l as [|p l IH]; intros [|k]; cbn; try reflexivity. apply IH. }
  assert (E4 : forall k, nth k (map snd inp) 0 = IZR (nth k r 0%Z)) by (intros k; rewrite E2; apply (map_nth IZR)).
  assert (E5 : forall k, sumR (S k) (fun i => nth i (map (fun p => snd (fst p)) inp) 0 * / 1000000 * INR B) + nth k (map snd inp) 0 = IZR (nth k r 0%Z)).
  { intros k. rewrite sumR_zero2 by (intros i _; rewrite E3; ring). rewrite E4. ring. }
  destruct (C43_resampling B inp (fun k => nth k r 0%Z) HB) as (outs & st' & E & L & G).
  - intros b u v Hi. apply in_map_iff in Hi. destruct Hi as ([b' m'] & [= <- _ _] & Hi). apply Hb. exact (in_combine_l _ _ _ _ Hi).
  - intros k Hk. cbv beta. rewrite E5. split; [apply nearest_IZR|]. apply Hm. apply nth_In. lia.
  - exists outs, st'. split; [exact E|]. intros k n Hk Hn. destruct (G (S k) n ltac:(lia) Hn) as [_ ->]. cbv beta iota. rewrite !E5, E1.
    rewrite !Rminus_diag_eq, !Rplus_0_r by reflexivity. rewrite !read_integer, fade_out by lia. f_equal. f_equal. f_equal. lia.
Qed.
Example C43_ex_resampling : forall k, (k < 2)%nat ->
  nearest (sumR (S k) (fun _ => 250000 * / 1000000 * INR 2)) (nth k [0; 1]%Z 0%Z) /\ (- Z.of_nat 2 <= nth k [0; 1]%Z 0%Z < Z.of_nat 2)%Z.
Proof.
  intros [|[|k]] Hk; [| |lia]; (split; [|cbn; lia]); unfold nearest; cbn [sumR nth INR]; (split; [apply Rabs_le; lra|]); intros H; [reflexivity|]. exfalso. rewrite Rabs_right in H by lra. lra.
Qed.
(** No rate offset and a constant offset of [m] samples, within one block: sample [j] of
    the output is sample [j - 2 B + m] of the input (zero before its beginning). *)
Theorem C43_integer_delay : forall B m blocks, (0 < B)%nat -> (- Z.of_nat B <= m < Z.of_nat B)%Z -> (forall bl, In bl blocks -> length bl = B) ->
  exists outs st', rs_run B (rs_new B) (map (fun bl => (bl, 0, IZR m)) blocks) = Ok (outs, st') /\ length outs = length blocks /\
    forall k n, (k < length blocks)%nat -> (n < B)%nat -> length (fst (nth k outs ([], (0, 0)%Z))) = B /\
      nth n (fst (nth k outs ([], (0, 0)%Z))) 0 = stream (concat blocks) (Z.of_nat (k * B + n) - 2 * Z.of_nat B + m).
Proof. exact run_delay. Qed.
(** In particular a delay of exactly two blocks. *)
Theorem C43_zero_offset_two_blocks : forall B blocks, (0 < B)%nat -> (forall bl, In bl blocks -> length bl = B) ->
  exists outs st', rs_run B (rs_new B) (map (fun bl => (bl, 0, 0)) blocks) = Ok (outs, st') /\
    map fst outs = firstn (length blocks) (repeat 0 B :: repeat 0 B :: blocks).
Proof.
  intros B blocks HB Hb. destruct (run_delay B 0 blocks HB ltac:(lia) Hb) as (outs & st' & E & L & G). exists outs, st'. split; [exact E|].
  set (Z0 := repeat 0 B). apply (nth_ext _ _ [] []).
  - rewrite map_length, firstn_length. cbn [length]. lia.
  - intros k Hk. rewrite map_length, L in Hk.
    rewrite (nth_indep _ [] (fst ([], (0, 0)%Z))) by (rewrite map_length; lia). rewrite (map_nth fst).
    assert (Hf : nth k (firstn (length blocks) (Z0 :: Z0 :: blocks)) [] = nth k (Z0 :: Z0 :: blocks) []).
    { rewrite <- (firstn_skipn (length blocks) (Z0 :: Z0 :: blocks)) at 2. rewrite app_nth1 by (rewrite firstn_length; cbn [length]; lia). reflexivity. }
    rewrite Hf. assert (Hl : length (nth k (Z0 :: Z0 :: blocks) []) = B).
    { destruct k as [|[|k]]; cbn [nth]; [apply repeat_length | apply repeat_length | apply Hb; apply nth_In; lia]. }
    destruct (G k 0%nat Hk HB) as [G1 _]. apply (nth_ext _ _ 0 0); [rewrite G1, Hl; reflexivity|]. intros n Hn. rewrite G1 in Hn. destruct (G k n Hk Hn) as [_ ->].
    unfold stream. destruct k as [|[|k]]; cbn [nth]; unfold Z0; rewrite ?nth_repeat.
    + destruct (Z.ltb_spec (Z.of_nat (0 * B + n) - 2 * Z.of_nat B + 0) 0); [reflexivity | lia].
    + destruct (Z.ltb_spec (Z.of_nat (1 * B + n) - 2 * Z.of_nat B + 0) 0); [reflexivity | lia].
    + destruct (Z.ltb_spec (Z.of_nat (S (S k) * B + n) - 2 * Z.of_nat B + 0) 0); [lia|].
      replace (Z.to_nat (Z.of_nat (S (S k) * B + n) - 2 * Z.of_nat B + 0)) with (k * B + n)%nat by lia. apply concat_nth; [exact HB | exact Hb | lia | exact Hn].
Qed.
(** The returned block is a view of the output buffer: after the next call, the same
    memory holds the next block. *)
Theorem C43_returned_block_is_a_view : forall B st block sro sto o r st', wf B st -> length block = B ->
  rs_process B st block sro sto = Ok (o, r, st') -> firstn B (r_out st') = o.
Proof.
  intros B st block sro sto o r st' W Hl E. assert (P := process_ok B st block sro sto W Hl). cbv zeta in P.
  destruct (select_range B _) as [[s e] u]. destruct P as (st1 & E1 & _ & L & _ & Est). rewrite E1 in E. injection E as <- <- <-. rewrite Est. cbn [r_out].
  rewrite firstn_app. replace (B - length _)%nat with 0%nat by lia. cbn [firstn]. rewrite app_nil_r. reflexivity.
Qed.
Example C43_example : exists outs st', rs_run 1 (rs_new 1) (map (fun bl => (bl, 0, 0)) [[1]; [2]; [3]; [4]]) = Ok (outs, st') /\ map fst outs = [[0]; [0]; [1]; [2]].
Proof. apply (C43_zero_offset_two_blocks 1 [[1]; [2]; [3]; [4]]); [lia|]. intros bl Hbl. cbn in Hbl. repeat (destruct Hbl as [<-|Hbl]; [reflexivity|]). destruct Hbl. Qed.

(** ** C60 *)
Lemma sync_channel1 B inp : forall db rs rs' outs, (exists n h, (0 < n)%nat /\ db_inv (repeat 0 B) n db h) ->
  rs_run B rs (map (fun p => (snd (fst p), - snd p, 0)) inp) = Ok (outs, rs') ->
  exists z, sync_run B (db, rs) inp = Ok z /\ map snd z = map fst outs.
Proof.
  induction inp as [|[[x0 x1] est] inp IH]; intros db rs rs' outs (n & h & Hn & Hd) E; cbn [map rs_run] in E.
  - injection E as <- <-. exists []. split; reflexivity.
  - cbn [fst snd] in E. cbn [sync_run]. unfold sync_step. cbn [fst snd]. destruct (rs_process B rs x1 (- est) 0) as [[[o r] rs1]|]; [|discriminate]. cbn [bind fst snd] in *.
    destruct (rs_run B rs1 _) as [[outs1 rs2]|] eqn:E1; [|discriminate]. cbn [bind fst snd] in E. injection E as <- <-.
    destruct (db_inv_write (repeat 0 B) n db h x0 Hn Hd) as (db1 & Ew & Hd1). rewrite Ew. cbn [bind]. rewrite (db_inv_read _ n db1 _ Hn Hd1). cbn [bind fst snd].
    destruct (IH db1 rs1 rs2 outs1) as (z & Ez & Hz); [exists n, (x0 :: h); split; assumption | exact E1|].
    rewrite Ez. cbn [bind]. eexists. split; [reflexivity|]. cbn [map fst snd]. f_equal. exact Hz.
Qed.
Lemma sync_channel0 B inp : forall db rs z h, db_inv (repeat 0 B) 3 db h -> sync_run B (db, rs) inp = Ok z ->
  forall k, (k < length inp)%nat -> fst (nth k z ([], [])) = nth 2 (rev (firstn (S k) (map (fun p => fst (fst p)) inp)) ++ h) (repeat 0 B).
Proof.
  induction inp as [|[[x0 x1] est] inp IH]; intros db rs z h Hd E k Hk; [cbn in Hk; lia|]. cbn [sync_run] in E. unfold sync_step in E. cbn [fst snd] in E.
  destruct (rs_process B rs x1 (- est) 0) as [[[o r] rs1]|]; [|discriminate]. cbn [bind fst snd] in E.
  destruct (db_inv_write (repeat 0 B) 3 db h x0 ltac:(lia) Hd) as (db1 & Ew & Hd1). rewrite Ew in E. cbn [bind] in E. rewrite (db_inv_read _ 3 db1 _ ltac:(lia) Hd1) in E. cbn [bind fst snd] in E.
  destruct (sync_run B (db1, rs1) inp) as [z1|] eqn:E1; [|discriminate]. cbn [bind] in E. injection E as <-. destruct k as [|k].
  - reflexivity.
  - cbn [nth]. rewrite (IH db1 rs1 z1 (x0 :: h) Hd1 E1 k) by (cbn in Hk; lia). cbn [map fst]. change (firstn (S (S k)) (x0 :: ?l)) with (x0 :: firstn (S k) l).
    cbn [rev]. rewrite <- app_assoc. reflexivity.
Qed.
(** While the estimate is zero, the estimator gets both channels of two frames ago. *)
Theorem C60_channels_aligned : forall B (inputs : list (list R * list R)), (0 < B)%nat -> (forall x0 x1, In (x0, x1) inputs -> length x0 = B /\ length x1 = B) ->
  sync_run B (sync_new B) (map (fun p => (fst p, snd p, 0)) inputs) = Ok (firstn (length inputs) ((repeat 0 B, repeat 0 B) :: (repeat 0 B, repeat 0 B) :: inputs)).
Proof.
  intros B inputs HB Hl. set (Z0 := repeat 0 B).
  destruct (C43_zero_offset_two_blocks B (map snd inputs) HB) as (outs & st' & E & Ho).
  { intros bl Hbl. apply in_map_iff in Hbl. destruct Hbl as ([x0 x1] & <- & Hi). apply (Hl x0 x1 Hi). }
  set (inp := map (fun p => (fst p, snd p, 0)) inputs).
  assert (E' : rs_run B (rs_new B) (map (fun p => (snd (fst p), - snd p, 0)) inp) = Ok (outs, st')).
  { rewrite <- E. f_equal. unfold inp. rewrite !map_map. apply map_ext. intros [x0 x1]. cbn [fst snd]. rewrite Ropp_0. reflexivity. }
  destruct (sync_channel1 B inp (db_new Z0 3) (rs_new B) st' outs) as (z & Ez & Hz); [exists 3%nat, []; split; [lia | apply db_inv_new; lia] | exact E'|].
  unfold sync_new. fold Z0. rewrite Ez. f_equal.
  assert (H0 := sync_channel0 B inp (db_new Z0 3) (rs_new B) z [] (db_inv_new Z0 3 ltac:(lia)) Ez).
  assert (Hlz : length z = length inputs) by (rewrite <- (map_length snd z), Hz, Ho, firstn_length; cbn [length]; rewrite map_length; lia).
  apply (nth_ext _ _ ([], []) ([], [])); [rewrite Hlz, firstn_length; cbn [length]; lia|]. intros k Hk. rewrite Hlz in Hk.
  assert (Hf : nth k (firstn (length inputs) ((Z0, Z0) :: (Z0, Z0) :: inputs)) ([], []) = nth k ((Z0, Z0) :: (Z0, Z0) :: inputs) ([], [])).
  { rewrite <- (firstn_skipn (length inputs) ((Z0, Z0) :: (Z0, Z0) :: inputs)) at 2. rewrite app_nth1 by (rewrite firstn_length; cbn [length]; lia). reflexivity. }
  rewrite Hf. apply injective_projections.
  - rewrite H0 by (unfold inp; rewrite map_length; exact Hk). rewrite app_nil_r. unfold inp. rewrite map_map. cbn [fst snd].
    assert (Hlen : (S k <= length (map (fun p : list R * list R => fst p) inputs))%nat) by (rewrite map_length; lia).
    set (l := map (fun p : list R * list R => fst p) inputs) in *.
    destruct k as [|[|k]].
    + destruct l as [|a l]; [cbn in Hlen; lia|]. reflexivity.
    + destruct l as [|a [|a' l]]; [cbn in Hlen; lia | cbn in Hlen; lia|]. reflexivity.
    + cbn [nth]. rewrite rev_nth by (rewrite firstn_length; lia). rewrite firstn_length. replace (Nat.min (S (S (S k))) (length l) - 3)%nat with k by lia.
      rewrite <- (firstn_skipn (S (S (S k))) l) in Hlen.
      assert (Hk2 : nth k (firstn (S (S (S k))) l) Z0 = nth k l Z0).
      { rewrite <- (firstn_skipn (S (S (S k))) l) at 2. rewrite app_nth1; [reflexivity|]. rewrite firstn_length. rewrite firstn_skipn in Hlen. lia. }
      fold Z0. rewrite Hk2. unfold l. rewrite (nth_indep _ Z0 (fst (@nil R, @nil R))) by (rewrite map_length; lia). apply (map_nth (fun p : list R * list R => fst p)).
  - assert (Hs : snd (nth k z ([], [])) = nth k (map fst outs) []).
    { rewrite <- Hz. symmetry. rewrite (nth_indep _ [] (snd (@nil R, @nil R))) by (rewrite map_length, Hlz; exact Hk). apply map_nth. }
    rewrite Hs, Ho, map_length. fold Z0.
    assert (Hf2 : nth k (firstn (length inputs) (Z0 :: Z0 :: map snd inputs)) [] = nth k (Z0 :: Z0 :: map snd inputs) []).
    { rewrite <- (firstn_skipn (length inputs) (Z0 :: Z0 :: map snd inputs)) at 2. rewrite app_nth1 by (rewrite firstn_length; cbn [length]; rewrite map_length; lia). reflexivity. }
    rewrite Hf2. destruct k as [|[|k]]; cbn [nth]; [reflexivity | reflexivity|]. rewrite (nth_indep _ [] (snd (@nil R, @nil R))) by (rewrite map_length; lia). apply map_nth.
Qed.
Example C60_example : sync_run 1 (sync_new 1) [([1], [5], 0); ([2], [6], 0); ([3], [7], 0); ([4], [8], 0)]
  = Ok [([0], [0]); ([0], [0]); ([1], [5]); ([2], [6])].
Proof.
  apply (C60_channels_aligned 1 [([1], [5]); ([2], [6]); ([3], [7]); ([4], [8])]); [lia|]. intros x0 x1 H. cbn in H.
  repeat (destruct H as [H|H]; [injection H as <- <-; split; reflexivity|]). destruct H.
Qed.
