(** Reconstruction by successive whole-chunk compressions. *)
From Verif Require Import Base BaseFacts Cx CxFacts ChunkSpec ChunkFacts Wola WolaFacts WolaSpec.
From Coq Require Import Reals Lra.
Open Scope R_scope.

Section Run.
  Variables (q : nat) (h f gains : list R) (y : nat -> nat -> R).
  Hypothesis Hq : (0 < q)%nat.
  Hypothesis Hh : length h = (2 * q)%nat.
  Let yAt := block_at (length gains) q y.
  Let wAt := fun _ : nat => flat_filters q gains.
  Let x := fused gains y.

  Lemma yAt_length m : length (yAt m) = length gains.
  Proof. unfold yAt, block_at. rewrite map_length, seq_length. reflexivity. Qed.

  Lemma flat_nth s i : (s < length gains)%nat -> (i < q + 1)%nat ->
    nth i (nth s (flat_filters q gains) []) czero = cr (nth s gains 0).
  Proof.
    intros Hs Hi. unfold flat_filters.
    rewrite (nth_indep _ [] ((fun g => repeat (cr g) (q + 1)) 0)) by (rewrite map_length; exact Hs).
    rewrite (map_nth (fun g => repeat (cr g) (q + 1))). rewrite (nth_indep _ czero (cr (nth s gains 0))) by (rewrite repeat_length; exact Hi).
    apply nth_repeat.
  Qed.

  Lemma mix_at m j : (j < 2 * q)%nat -> mix gains (yAt m) j = x (m * q + j).
  Proof.
    intros Hj. unfold mix, x, fused. rewrite yAt_length. apply sumR_ext. intros s Hs. f_equal.
    unfold yAt, block_at. rewrite (nth_map_seq _ [] (length gains) s Hs), nth_map_seq by exact Hj. reflexivity.
  Qed.

  Lemma step m prev :
    length prev = (2 * q)%nat \/ all_zero prev = true ->
    exists zh z, compress_whole_chunk (2 * q) q h f (wAt m) (yAt m) prev = Ok (zh, z) /\ length z = (2 * q)%nat /\
      (forall j, (q <= j < 2 * q)%nat -> nth j z 0 = nth j h 0 * nth j f 0 * x (m * q + j)) /\
      (forall j, (j < q)%nat -> nth j z 0 =
         if all_zero prev then nth j h 0 * nth j f 0 * x (m * q + j)
         else (nth (q + j) prev 0 + nth j h 0 * nth j f 0 * x (m * q + j)) /
              (nth (j + q) h 0 * nth (j + q) h 0 + nth j h 0 * nth j h 0)).
  Proof.
    intros Hp.
    assert (Hw : forall s i, (s < length (yAt m))%nat -> (i < q + 1)%nat -> nth i (nth s (wAt m) []) czero = cr (nth s gains 0)).
    { intros s i Hs Hi. rewrite yAt_length in Hs. apply flat_nth; assumption. }
    destruct (all_zero prev) eqn:Ez.
    - destruct (compress_first q h f gains (wAt m) (yAt m) prev Hq Hw Ez) as [zh E]. exists zh. eexists. split; [exact E|].
      unfold cur_block. split; [rewrite map_length, seq_length; reflexivity|].
      split; intros j Hj; rewrite nth_map_seq by lia; rewrite mix_at by lia; reflexivity.
    - destruct Hp as [Hp|]; [|congruence].
      destruct (compress_next q h f gains (wAt m) (yAt m) prev Hq Hh Hp Hw Ez) as [zh [z [E [L [H1 H2]]]]].
      exists zh, z. split; [exact E|]. split; [exact L|]. split; intros j Hj.
      + rewrite H2 by lia. rewrite mix_at by lia. reflexivity.
      + rewrite H1 by lia. rewrite mix_at by lia. reflexivity.
  Qed.

  Lemma run_blocks count : forall m prev,
    length prev = (2 * q)%nat \/ all_zero prev = true ->
    exists bs, compress_run (2 * q) q h f wAt yAt count m prev = Ok bs /\ length bs = count /\
      forall i, (i < count)%nat ->
        length (nth i bs []) = (2 * q)%nat /\
        (forall j, (q <= j < 2 * q)%nat -> nth j (nth i bs []) 0 = nth j h 0 * nth j f 0 * x ((m + i) * q + j)) /\
        (forall j, (j < q)%nat -> nth j (nth i bs []) 0 =
           let p := nth i (prev :: bs) [] in
           if all_zero p then nth j h 0 * nth j f 0 * x ((m + i) * q + j)
           else (nth (q + j) p 0 + nth j h 0 * nth j f 0 * x ((m + i) * q + j)) /
                (nth (j + q) h 0 * nth (j + q) h 0 + nth j h 0 * nth j h 0)).
  Proof.
    induction count as [|count IH]; intros m prev Hp.
    - exists []. split; [reflexivity|]. split; [reflexivity|]. intros; lia.
    - destruct (step m prev Hp) as [zh [z [E [L [H2 H1]]]]].
      destruct (IH (S m) z (or_introl L)) as [bs [E' [L' H]]].
      exists (z :: bs). split; [cbn [compress_run]; rewrite E; cbn [bind snd]; rewrite E'; reflexivity|].
      split; [simpl; lia|]. intros [|i] Hi.
      + cbn [nth]. rewrite Nat.add_0_r. split; [exact L|]. split; [exact H2 | exact H1].
      + replace (m + S i)%nat with (S m + i)%nat by lia. cbn [nth]. apply H. lia.
  Qed.

  Lemma all_zero_false z : nonzero_block z -> all_zero z = false.
  Proof.
    intros [v [Hv Hne]]. destruct (all_zero z) eqn:E; [|reflexivity]. rewrite all_zero_true in E. exfalso. apply Hne, E, Hv.
  Qed.

  (** reconstruction *)
  Lemma run_reconstructs count :
    f = h ->
    exists bs, compress_run (2 * q) q h f wAt yAt count 0 [] = Ok bs /\ length bs = count /\
      (forall j, (0 < count)%nat -> (j < q)%nat -> nth j (nth 0 bs []) 0 = nth j h 0 * nth j h 0 * x j) /\
      forall m j, (1 <= m < count)%nat -> (j < q)%nat ->
        nth (q + j) h 0 * nth (q + j) h 0 + nth j h 0 * nth j h 0 <> 0 ->
        nth (q + j) h 0 <> 0 \/ nonzero_block (nth (m - 1) bs []) ->
        nth j (nth m bs []) 0 = x (m * q + j).
  Proof.
    intros Hf. destruct (run_blocks count 0 [] (or_intror eq_refl)) as [bs [E [L H]]].
    exists bs. split; [exact E|]. split; [exact L|]. split.
    - intros j Hc Hj. destruct (H 0%nat Hc) as [_ [_ H1]]. rewrite (H1 j Hj). cbn [nth]. rewrite Hf. reflexivity.
    - intros m j Hm Hj Hnorm Hor. destruct (H m ltac:(lia)) as [_ [_ H1]]. rewrite (H1 j Hj).
      destruct m as [|m]; [lia|]. cbn [nth]. replace (S m - 1)%nat with m in Hor by lia.
      destruct (H m ltac:(lia)) as [Lm [H2 _]].
      assert (T : nth (q + j) (nth m bs []) 0 = nth (q + j) h 0 * nth (q + j) h 0 * x (S m * q + j)).
      { rewrite (H2 (q + j)%nat ltac:(lia)), Hf. do 2 f_equal. simpl. lia. }
      cbv zeta. rewrite Hf. rewrite (Nat.add_comm j q). destruct (all_zero (nth m bs [])) eqn:Ez.
      + destruct Hor as [Hne|Hnz]; [|rewrite (all_zero_false _ Hnz) in Ez; discriminate].
        assert (Z : nth (q + j) (nth m bs []) 0 = 0).
        { rewrite all_zero_true in Ez. apply Ez. apply nth_In. lia. }
        rewrite T in Z. assert (X0 : x (S m * q + j) = 0).
        { apply Rmult_integral in Z. destruct Z as [Z|Z]; [|exact Z]. nra. }
        cbn [Nat.add]. rewrite X0. ring.
      + rewrite T. cbn [Nat.add]. field. exact Hnorm.
  Qed.
End Run.

(** ** Failures of other overlaps *)
Lemma fused_length q Ns h w yq : length (fused_spectrum (2 * q) Ns h w yq) = (q + 1)%nat.
Proof. unfold fused_spectrum. rewrite map_length, seq_length. replace (2 * q / 2)%nat with q by (rewrite Nat.mul_comm, Nat.div_mul; lia). reflexivity. Qed.

Lemma whole_many_overlaps q Ns h f w yq prev :
  (0 < q)%nat -> (0 < Ns)%nat -> (3 <= 2 * q / Ns)%nat -> length h = (2 * q)%nat -> length prev = (2 * q)%nat ->
  all_zero prev = false ->
  compress_whole_chunk (2 * q) Ns h f w yq prev = Err ValueError.
Proof.
  intros Hq HNs H3 Hh Hp Hz. unfold compress_whole_chunk. rewrite (back_ok _ q (fused_length q Ns h w yq) Hq). cbn [bind]. rewrite Hz.
  assert (HN : (3 * Ns <= 2 * q)%nat) by (apply (Nat.le_trans _ (2 * q / Ns * Ns)); [nia | rewrite Nat.mul_comm; apply Nat.mul_div_le; lia]).
  assert (EP : fit (2 * q - Ns) (py_from (- Z.of_nat (2 * q - Ns)) prev) = Ok (py_from (- Z.of_nat (2 * q - Ns)) prev)).
  { unfold fit. assert (E : length (py_from (- Z.of_nat (2 * q - Ns)) prev) = (2 * q - Ns)%nat).
    { unfold py_from. rewrite skipn_length. unfold py_bound. destruct (Z.ltb_spec (- Z.of_nat (2 * q - Ns)) 0); lia. }
    rewrite E, Nat.eqb_refl. reflexivity. }
  rewrite EP. cbn [bind]. rewrite norm_val_3 by assumption. reflexivity.
Qed.

Lemma whole_no_overlap q h f w yq prev :
  (0 < q)%nat -> length prev = (2 * q)%nat -> all_zero prev = false ->
  compress_whole_chunk (2 * q) (2 * q) h f w yq prev = Err ValueError.
Proof.
  intros Hq Hp Hz. unfold compress_whole_chunk. rewrite (back_ok _ q (fused_length q (2 * q) h w yq) Hq). cbn [bind]. rewrite Hz.
  replace (2 * q - 2 * q)%nat with 0%nat by lia. change (- Z.of_nat 0)%Z with 0%Z.
  assert (E : py_from 0 prev = prev) by (unfold py_from, py_bound; destruct (Z.ltb_spec 0 0); [lia|]; replace (Z.to_nat _) with 0%nat by lia; reflexivity).
  rewrite E. unfold fit. rewrite Hp. destruct (Nat.eqb_spec (2 * q) 0); [lia|]. destruct (Nat.eqb_spec (2 * q) 1); [lia|]. reflexivity.
Qed.
