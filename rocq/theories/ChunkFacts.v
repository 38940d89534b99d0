(** Lemmas about Chunk.v. *)
From Verif Require Import Base BaseFacts Chunk ChunkSpec CentrFacts.
From Coq Require Import Reals Lra.
Open Scope Z_scope.

Lemma py_bound_in n i : 0 <= i <= Z.of_nat n -> py_bound n i = Z.to_nat i.
Proof. intros H. unfold py_bound. destruct (Z.ltb_spec i 0); lia. Qed.
Lemma py_bound_over n i : Z.of_nat n <= i -> py_bound n i = n.
Proof. intros H. unfold py_bound. destruct (Z.ltb_spec i 0); lia. Qed.

Lemma nth_error_slice {A} a b (l : list A) i :
  nth_error (slice a b l) i = if (i <? b - a)%nat then nth_error l (a + i) else None.
Proof.
  unfold slice. destruct (Nat.ltb_spec i (b - a)).
  - rewrite nth_error_firstn by assumption. rewrite nth_error_skipn. reflexivity.
  - apply nth_error_None. rewrite firstn_length. lia.
Qed.

Lemma slice_length {A} a b (l : list A) : (b <= length l)%nat -> length (slice a b l) = (b - a)%nat.
Proof. intros H. unfold slice. rewrite firstn_length, skipn_length. lia. Qed.

Section C.
  Variable Row : Type.
  Variable zrow : Row.

  Lemma chunk_ending_ok (y : list Row) e N :
    0 < N -> 0 <= e <= Z.of_nat (length y) ->
    exists c, chunk_ending zrow y e N = Ok (c, Z.max (e - N) 0, e) /\
      Z.of_nat (length c) = N /\
      forall i, 0 <= i < N -> nth_error c (Z.to_nat i) = Some (sample zrow y (e - N + i)).
  Proof.
    intros HN He. unfold chunk_ending. set (b := Z.max (e - N) 0).
    assert (Hb : 0 <= b <= e) by lia.
    assert (Hs : py_slice b e y = slice (Z.to_nat b) (Z.to_nat e) y).
    { unfold py_slice. rewrite !py_bound_in by lia. reflexivity. }
    rewrite Hs. assert (HL : length (slice (Z.to_nat b) (Z.to_nat e) y) = (Z.to_nat e - Z.to_nat b)%nat) by (apply slice_length; lia).
    rewrite HL. destruct (Z.ltb_spec (e - b) N) as [Hlt|Hge].
    - destruct (Z.ltb_spec (N - Z.of_nat (Z.to_nat e - Z.to_nat b)) 0); [lia|].
      eexists. split; [reflexivity|]. split; [rewrite app_length, repeat_length, HL; lia|].
      intros i Hi. unfold sample. destruct (Z.ltb_spec (e - N + i) 0).
      + rewrite nth_error_app1 by (rewrite repeat_length; lia). rewrite nth_error_repeat by lia. reflexivity.
      + rewrite nth_error_app2 by (rewrite repeat_length; lia). rewrite repeat_length, nth_error_slice.
        destruct (Nat.ltb_spec (Z.to_nat i - Z.to_nat (N - Z.of_nat (Z.to_nat e - Z.to_nat b))) (Z.to_nat e - Z.to_nat b)); [|lia].
        replace (Z.to_nat b + (Z.to_nat i - Z.to_nat (N - Z.of_nat (Z.to_nat e - Z.to_nat b))))%nat with (Z.to_nat (e - N + i)) by lia.
        apply nth_error_nth'. lia.
    - eexists. split; [reflexivity|]. split; [rewrite HL; lia|].
      intros i Hi. unfold sample. destruct (Z.ltb_spec (e - N + i) 0); [lia|]. rewrite nth_error_slice.
      destruct (Nat.ltb_spec (Z.to_nat i) (Z.to_nat e - Z.to_nat b)); [|lia].
      replace (Z.to_nat b + Z.to_nat i)%nat with (Z.to_nat (e - N + i)) by lia. apply nth_error_nth'. lia.
  Qed.

  (** beyond the end of the recording the block gets shorter (or is padded) *)
  Lemma chunk_ending_beyond (y : list Row) e N :
    0 < N -> N <= e -> Z.of_nat (length y) < e ->
    exists c, chunk_ending zrow y e N = Ok (c, e - N, e) /\
      Z.of_nat (length c) = Z.max 0 (N - (e - Z.of_nat (length y))).
  Proof.
    intros HN HeN He. unfold chunk_ending. replace (Z.max (e - N) 0) with (e - N) by lia.
    destruct (Z.ltb_spec (e - (e - N)) N); [lia|]. eexists. split; [reflexivity|].
    unfold py_slice. rewrite (py_bound_over _ e) by lia.
    unfold slice. rewrite firstn_length, skipn_length. unfold py_bound. destruct (Z.ltb_spec (e - N) 0); lia.
  Qed.
End C.

Open Scope R_scope.
Lemma sumR_ext n f g : (forall i, (i < n)%nat -> f i = g i) -> sumR n f = sumR n g.
Proof. induction n; intros H; simpl; [reflexivity|]. rewrite IHn, H by (intros; auto with arith). reflexivity. Qed.

Lemma sumR_S_l n f : sumR (S n) f = f 0%nat + sumR n (fun i => f (S i)).
Proof. induction n; simpl in *; [lra|]. rewrite IHn. lra. Qed.

Lemma sumR_rev n f : sumR n f = sumR n (fun i => f (n - 1 - i)%nat).
Proof.
  induction n as [|n IH]; [reflexivity|]. rewrite (sumR_S_l n (fun i => f (S n - 1 - i)%nat)). simpl sumR.
  rewrite IH, Rplus_comm. f_equal; [f_equal; lia|]. apply sumR_ext. intros i Hi. f_equal. lia.
Qed.

Lemma dot_sumR a b : length a = length b ->
  fold_right Rplus 0 (map (fun p => fst p * snd p) (combine a b)) = sumR (length a) (fun i => nth i a 0 * nth i b 0).
Proof.
  revert b; induction a as [|x a IH]; intros [|y b] H; try discriminate; [reflexivity|].
  cbn [combine map fold_right length fst snd]. rewrite sumR_S_l. rewrite IH by (simpl in H; lia). reflexivity.
Qed.

Lemma nth_sample {A} (z : A) l i : nth i l z = sample z l (Z.of_nat i).
Proof. unfold sample. destruct (Z.ltb_spec (Z.of_nat i) 0); [lia|]. rewrite Nat2Z.id. reflexivity. Qed.

Lemma extract_one a b id :
  (-1 <= id <= Z.of_nat (length a) + Z.of_nat (length b) - 1)%Z ->
  np_dot (py_slice (id + 1) (id + 1 + Z.of_nat (length a)) (repeat 0 (length a) ++ b ++ repeat 0 (length a))) (rev a)
  = Ok (conv a b id).
Proof.
  intros Hid. set (z := repeat 0 (length a) ++ b ++ repeat 0 (length a)).
  assert (Hz : length z = (length a + length b + length a)%nat) by (unfold z; rewrite !app_length, repeat_length; lia).
  assert (Hs : py_slice (id + 1) (id + 1 + Z.of_nat (length a)) z = slice (Z.to_nat (id + 1)) (Z.to_nat (id + 1) + length a) z).
  { unfold py_slice. rewrite !py_bound_in by lia. f_equal. lia. }
  rewrite Hs. set (s := slice _ _ z). assert (HL : length s = length a) by (unfold s; rewrite slice_length; lia).
  unfold np_dot. rewrite rev_length, HL, Nat.eqb_refl. f_equal.
  rewrite dot_sumR by (rewrite rev_length; exact HL). rewrite HL. unfold conv.
  rewrite sumR_rev. apply sumR_ext. intros i Hi.
  rewrite rev_nth by lia. replace (length a - S (length a - 1 - i))%nat with i by lia.
  rewrite Rmult_comm. f_equal.
  unfold s. set (j := (length a - 1 - i)%nat).
  assert (E : nth_error (slice (Z.to_nat (id + 1)) (Z.to_nat (id + 1) + length a) z) j = nth_error z (Z.to_nat (id + 1) + j)).
  { rewrite nth_error_slice. destruct (Nat.ltb_spec j (Z.to_nat (id + 1) + length a - Z.to_nat (id + 1))); [reflexivity | lia]. }
  assert (E2 : nth j (slice (Z.to_nat (id + 1)) (Z.to_nat (id + 1) + length a) z) 0 = nth (Z.to_nat (id + 1) + j) z 0).
  { destruct (nth_error z (Z.to_nat (id + 1) + j)) as [v|] eqn:Ev; [|apply nth_error_None in Ev; lia].
    rewrite (nth_error_nth _ _ _ E), (nth_error_nth _ _ _ Ev). reflexivity. }
  rewrite E2. unfold z, sample.
  destruct (Z.ltb_spec (id - Z.of_nat i) 0).
  - rewrite app_nth1 by (rewrite repeat_length; lia). apply nth_repeat.
  - rewrite app_nth2 by (rewrite repeat_length; lia). rewrite repeat_length.
    replace (Z.to_nat (id + 1) + j - length a)%nat with (Z.to_nat (id - Z.of_nat i)) by lia.
    destruct (Nat.ltb_spec (Z.to_nat (id - Z.of_nat i)) (length b)).
    + apply app_nth1. assumption.
    + rewrite app_nth2 by assumption. rewrite nth_repeat. symmetry. apply nth_overflow. assumption.
Qed.

Lemma extract_all ids a b :
  Forall (fun id => -1 <= id <= Z.of_nat (length a) + Z.of_nat (length b) - 1)%Z ids ->
  extract_few_samples ids a b = Ok (map (conv a b) ids).
Proof.
  intros H. unfold extract_few_samples. rewrite <- mapM_Ok_map. apply mapM_ext. intros id Hid.
  rewrite Forall_forall in H. apply extract_one, H, Hid.
Qed.

(** outside the output range the code raises or returns... nothing useful *)
Lemma extract_above a b id :
  (0 < length a)%nat ->
  (Z.of_nat (length a) + Z.of_nat (length b) - 1 < id)%Z -> extract_few_samples [id] a b = Err ValueError.
Proof.
  intros Ha Hid. unfold extract_few_samples. cbn [mapM]. unfold np_dot.
  set (z := repeat 0 (length a) ++ b ++ repeat 0 (length a)).
  assert (Hz : length z = (length a + length b + length a)%nat) by (unfold z; rewrite !app_length, repeat_length; lia).
  assert (HL : (length (py_slice (id + 1) (id + 1 + Z.of_nat (length a)) z) < length a)%nat).
  { unfold py_slice, slice. rewrite firstn_length, skipn_length. unfold py_bound.
    destruct (Z.ltb_spec (id + 1) 0), (Z.ltb_spec (id + 1 + Z.of_nat (length a)) 0); lia. }
  rewrite rev_length. destruct (Nat.eqb_spec (length (py_slice (id + 1) (id + 1 + Z.of_nat (length a)) z)) (length a)); [lia | reflexivity].
Qed.

Lemma fold_sum_map (l : list nat) f : fold_right Rplus 0 (map f l) = fold_right (fun i acc => f i + acc) 0 l.
Proof. induction l; simpl; [reflexivity | rewrite IHl; reflexivity]. Qed.

Lemma fold_right_sumR n f s : fold_right Rplus 0 (map f (seq s n)) = sumR n (fun i => f (s + i)%nat).
Proof.
  revert s; induction n as [|n IH]; intros s; [reflexivity|]. cbn [seq map fold_right]. rewrite IH, sumR_S_l.
  rewrite Nat.add_0_r. f_equal. apply sumR_ext. intros i _. f_equal. lia.
Qed.

Lemma compress_few_ok len wIR yq L :
  length wIR = length yq -> (L <= len + 2)%nat ->
  Forall (fun w => length w = len) wIR -> Forall (fun y => (1 <= length y)%nat) yq ->
  compress_few_samples len wIR yq L
  = Ok (map (fun i => sumR (length yq) (fun s => conv (nth s wIR []) (nth s yq []) (Z.of_nat len - Z.of_nat L + 1 + Z.of_nat i))) (seq 0 L)).
Proof.
  intros Hl HL Hw Hy. unfold compress_few_samples.
  set (ids := map (fun i => (Z.of_nat len - Z.of_nat L + 1 + Z.of_nat i)%Z) (seq 0 L)).
  assert (E : mapM (fun s => do w <- get wIR s; do y <- get yq s; extract_few_samples ids w y) (seq 0 (length yq))
            = Ok (map (fun s => map (conv (nth s wIR []) (nth s yq [])) ids) (seq 0 (length yq)))).
  { rewrite <- mapM_Ok_map. apply mapM_ext. intros s Hs. apply in_seq in Hs.
    assert (H1 : nth_error wIR s = Some (nth s wIR [])) by (apply nth_error_nth'; lia).
    assert (H2 : nth_error yq s = Some (nth s yq [])) by (apply nth_error_nth'; lia).
    rewrite (get_some _ _ _ H1). cbn [bind]. rewrite (get_some _ _ _ H2). cbn [bind]. apply extract_all.
    rewrite Forall_forall in Hw, Hy. rewrite (Hw _ (nth_error_In _ _ H1)). specialize (Hy _ (nth_error_In _ _ H2)).
    apply Forall_forall. intros id Hid. apply in_map_iff in Hid. destruct Hid as [i [<- Hi]]. apply in_seq in Hi. lia. }
  rewrite E. cbn [bind]. f_equal. apply map_ext_in. intros i Hi. apply in_seq in Hi.
  rewrite map_map, fold_right_sumR. apply sumR_ext. intros s Hs. cbn [Nat.add].
  unfold ids. rewrite map_map. rewrite (nth_indep _ 0 (conv (nth s wIR []) (nth s yq []) (Z.of_nat len - Z.of_nat L + 1 + Z.of_nat 0)))
    by (rewrite map_length, seq_length; lia).
  rewrite (map_nth (fun i => conv (nth s wIR []) (nth s yq []) (Z.of_nat len - Z.of_nat L + 1 + Z.of_nat i)) (seq 0 L) 0%nat).
  rewrite seq_nth by lia. reflexivity.
Qed.
