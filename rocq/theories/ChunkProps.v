(** Properties C18 and C19: sample blocks and time-domain filtering.
    Vocabulary: ChunkSpec.v. *)
From Verif Require Import Base BaseFacts Sched SchedSpec InstSpec InstFacts SchedProps SyncFacts2 Chunk ChunkSpec ChunkFacts.
From Coq Require Import Reals Lra.
Open Scope Z_scope.

(** ** C18 *)
(** The block handed to compression: [DFTsize] rows, row [i] being sample
    [e - DFTsize + i] (zero before the start of the recording), where [e] is the
    sample index of the instant. *)
Theorem C18_broadcast_chunk Row (zrow : Row) y t per N :
  0 < N -> 0 <= t / per <= Z.of_nat (length y) ->
  exists c, local_chunk_for_broadcast zrow y t per N = Ok (c, Z.max (t / per - N) 0, t / per) /\
    Z.of_nat (length c) = N /\
    forall i, 0 <= i < N -> nth_error c (Z.to_nat i) = Some (sample zrow y (t / per - N + i)).
Proof. exact (chunk_ending_ok Row zrow y (t / per) N). Qed.

Theorem C18_update_chunk Row (zrow : Row) y t per whole N Ns :
  let e := t / per - (if whole : bool then N - Ns else 0) in
  0 < N -> 0 <= e <= Z.of_nat (length y) ->
  exists c, local_chunk_for_update zrow y t per whole N Ns = Ok (c, Z.max (e - N) 0, e) /\
    Z.of_nat (length c) = N /\
    forall i, 0 <= i < N -> nth_error c (Z.to_nat i) = Some (sample zrow y (e - N + i)).
Proof.
  intros e HN He. unfold local_chunk_for_update.
  replace (if whole then t / per - (N - Ns) else t / per) with e by (unfold e; destruct whole; lia).
  exact (chunk_ending_ok Row zrow y e N HN He).
Qed.

(** The bounds hold at every event of a run in which every node has its own
    exact clock (periods may differ): every block has [DFTsize] rows. *)
Lemma exact_clock_event per Nt s s0 sep t :
  0 < per -> 0 < sep -> 0 <= s0 ->
  nominal_event (mkNode per (exact_clock per Nt) []) s0 sep s ->
  next_sample (exact_clock per Nt) (s * per) t ->
  t / per = s /\ s0 <= s <= Z.of_nat Nt.
Proof.
  intros Hp Hsep Hs0 [i [lt [Es [[Hin _] Hlt]]]] [Hint [Hle Hmin]]. simpl in *.
  apply in_map_iff in Hin. destruct Hin as [a [<- Ha]]. apply in_seq in Ha.
  assert (Hs : s < Z.of_nat a).
  { rewrite (Z.mul_comm per sep), Z.div_mul_cancel_r in Hlt by lia.
    pose proof (Z.mul_div_le (Z.of_nat a) sep Hsep). lia. }
  assert (Hsn : 0 <= s) by lia.
  assert (HIn : In (s * per) (exact_clock per Nt)).
  { apply in_map_iff. exists (Z.to_nat s). split; [f_equal; lia|]. apply in_seq. lia. }
  assert (t = s * per) by (specialize (Hmin _ HIn (Z.le_refl _)); lia). subst t.
  rewrite Z.div_mul by lia. nia.
Qed.

Theorem C18_every_event_of_a_run Row (zrow : Row) tsort p nodes ordering_of (y : nat -> list Row) :
  is_argsort tsort -> good_params p -> (p_whole p = true -> p_L p = p_Ns p) ->
  p_Ns p <= p_N p ->
  (forall k nd, nth_error nodes k = Some nd ->
     0 < period nd /\ stamps nd = exact_clock (period nd) (length (y k)) /\ y k <> []) ->
  p_ti p = false -> (p_whole p = true \/ p_efficient p = false) ->
  exists sched, initialize_events tsort p nodes ordering_of = Ok (sched, []) /\
    forall t k nd, nth_error nodes k = Some nd ->
      (scheduled sched t k Bc ->
         exists c b e, local_chunk_for_broadcast zrow (y k) t (period nd) (p_N p) = Ok (c, b, e) /\
                       Z.of_nat (length c) = p_N p /\ e * period nd = t) /\
      (scheduled sched t k Up ->
         exists c b e, local_chunk_for_update zrow (y k) t (period nd) (p_whole p) (p_N p) (p_Ns p) = Ok (c, b, e) /\
                       Z.of_nat (length c) = p_N p /\
                       (e + (if p_whole p then p_N p - p_Ns p else 0)) * period nd = t).
Proof.
  intros Hs Hp Hw HN Hnodes Hti Heff.
  destruct (C01_run_schedule_exact tsort p nodes ordering_of Hs Hp Hw) as [sched [E [_ [_ HS]]]]; try assumption.
  { intros nd Hnd. apply In_nth_error in Hnd. destruct Hnd as [k Hk]. destruct (Hnodes k nd Hk) as [H1 [H2 H3]].
    split; [split; [rewrite H2; apply exact_clock_sorted; assumption | assumption]|].
    rewrite H2. destruct (y k); [congruence | discriminate]. }
  exists sched. split; [exact E|]. intros t k nd Hk. destruct (Hnodes k nd Hk) as [H1 [H2 H3]].
  destruct Hp as [P1 [P2 P3]].
  assert (HE : forall ty, scheduled sched t k ty -> t / period nd * period nd = t /\ ev_first p ty <= t / period nd <= Z.of_nat (length (y k)) /\ (ty = Up \/ ty = Bc)).
  { intros ty H. apply HS in H. destruct H as [Hty [nd' [s [Hk' [Hnom Hns]]]]]. assert (nd' = nd) by congruence. subst nd'.
    assert (0 < ev_sep p ty) by (destruct ty; simpl; lia).
    assert (0 <= cdiv (p_N p) (p_Ns p)) by (pose proof (cdiv_pos (p_N p) (p_Ns p) P1 P2); lia).
    assert (0 <= ev_first p ty) by (destruct ty; simpl; destruct (p_whole p); nia).
    assert (Hnom' : nominal_event (mkNode (period nd) (exact_clock (period nd) (length (y k))) []) (ev_first p ty) (ev_sep p ty) s).
    { destruct Hnom as [i [lt Hi]]. exists i, lt. simpl. rewrite <- H2. exact Hi. }
    rewrite H2 in Hns. destruct (exact_clock_event _ _ _ _ _ _ H1 H H4 Hnom' Hns) as [Ht Hb].
    destruct Hns as [Hin _]. apply in_map_iff in Hin. destruct Hin as [a [Ea _]].
    assert (Ha : t / period nd = Z.of_nat a) by (rewrite <- Ea; apply Z.div_mul; lia).
    split; [rewrite Ha; exact Ea|]. split; [lia | exact Hty]. }
  split; intros Hev; destruct (HE _ Hev) as [Ht [Hb _]].
  - destruct (C18_broadcast_chunk Row zrow (y k) t (period nd) (p_N p)) as [c [Ec [Hc _]]]; [lia | |].
    { assert (0 <= ev_first p Bc) by (simpl; destruct (p_whole p); lia). lia. }
    exists c, (Z.max (t / period nd - p_N p) 0), (t / period nd). auto.
  - assert (p_N p <= ev_first p Up).
    { simpl. unfold cdiv. pose proof (Z.div_mod (p_N p + p_Ns p - 1) (p_Ns p) ltac:(lia)). pose proof (Z.mod_pos_bound (p_N p + p_Ns p - 1) (p_Ns p) P2). lia. }
    destruct (C18_update_chunk Row zrow (y k) t (period nd) (p_whole p) (p_N p) (p_Ns p)) as [c [Ec [Hc _]]]; [lia | destruct (p_whole p); lia |].
    eexists c, _, _. split; [exact Ec|]. split; [exact Hc|]. rewrite <- Ht at 2. f_equal. lia.
Qed.

(** Instants after the end of the recording give shorter blocks, without an
    error in the extraction. *)
Theorem C18_beyond_the_recording Row (zrow : Row) y t per N :
  0 < N -> N <= t / per -> Z.of_nat (length y) < t / per ->
  exists c, local_chunk_for_broadcast zrow y t per N = Ok (c, t / per - N, t / per) /\
    Z.of_nat (length c) = Z.max 0 (N - (t / per - Z.of_nat (length y))).
Proof. exact (chunk_ending_beyond Row zrow y (t / per) N). Qed.

(** Before [DFTsize - hop] samples exist, the whole-chunk update block would
    contain samples of the far end of the recording: a negative end index counts
    from the end.  (No update is ever scheduled that early.) *)
Example C18_too_early :
  local_chunk_for_update 0 [1; 2; 3; 4; 5] 1 1 true 4 2 = Ok ([1; 2; 3; 4], 0, -1).
Proof. reflexivity. Qed.

Example C18_example :
  local_chunk_for_broadcast 0 [1; 2; 3; 4; 5; 6] 30 10 4 = Ok ([0; 1; 2; 3], 0, 3) /\
  local_chunk_for_update 0 [1; 2; 3; 4; 5; 6] 65 10 true 4 2 = Ok ([1; 2; 3; 4], 0, 4) /\
  local_chunk_for_update 0 [1; 2; 3; 4; 5; 6] 65 10 false 4 2 = Ok ([3; 4; 5; 6], 2, 6).
Proof. repeat split. Qed.

Example C18_run_example :
  let y := fun k : nat => if Nat.eqb k 0 then repeat 1 13 else repeat 2 14 in
  let nodes := [mkNode 10 (exact_clock 10 13) [1%nat]; mkNode 11 (exact_clock 11 14) [0%nat]] in
  (forall k nd, nth_error nodes k = Some nd ->
     0 < period nd /\ stamps nd = exact_clock (period nd) (length (y k)) /\ y k <> []) /\
  exists sched, initialize_events tsort0 ex_params nodes (fun _ => []) = Ok (sched, []) /\
    existsb (fun i => existsb (fun e => evtype_eqb (snd e) Up) (in_evs i)) sched = true.
Proof.
  intros y nodes. split.
  - intros [|[|k]] nd H; simpl in H; try discriminate; [| |destruct k; discriminate];
    injection H as <-; (split; [reflexivity | split; [reflexivity | discriminate]]).
  - eexists. split; vm_compute; reflexivity.
Qed.

(** ** C19 *)
Theorem C19_samples_of_convolution ids a b :
  Forall (fun id => -1 <= id <= Z.of_nat (length a) + Z.of_nat (length b) - 1) ids ->
  extract_few_samples ids a b = Ok (map (conv a b) ids).
Proof. exact (extract_all ids a b). Qed.

(** Asking for a sample after the end of the convolution is an error. *)
Theorem C19_out_of_range a b id :
  (0 < length a)%nat -> Z.of_nat (length a) + Z.of_nat (length b) - 1 < id ->
  extract_few_samples [id] a b = Err ValueError.
Proof. exact (extract_above a b id). Qed.

(** Few-samples compression: [L] consecutive samples of the sum over the sensors
    of the linear convolutions, ending with sample [len(wIR)]. *)
Theorem C19_compression len wIR yq L :
  length wIR = length yq -> (L <= len + 2)%nat ->
  Forall (fun w => length w = len) wIR -> Forall (fun y => (1 <= length y)%nat) yq ->
  compress_few_samples len wIR yq L
  = Ok (map (fun i => sumR (length yq) (fun s =>
         conv (nth s wIR []) (nth s yq []) (Z.of_nat len - Z.of_nat L + 1 + Z.of_nat i))) (seq 0 L)).
Proof. exact (compress_few_ok len wIR yq L). Qed.

Open Scope R_scope.
Example C19_example :
  extract_few_samples [0; 1; 3]%Z [1; 2] [3; 4; 5] = Ok [3; 10; 10] /\
  compress_few_samples 2 [[1; 2]; [0; 1]] [[3; 4; 5]; [1; 1; 1]] 2 = Ok [11; 14].
Proof.
  split.
  - rewrite C19_samples_of_convolution by (repeat constructor; simpl; lia).
    unfold conv, sample; simpl; repeat f_equal; lra.
  - rewrite C19_compression; [|reflexivity|lia|repeat constructor|repeat constructor].
    unfold conv, sample; simpl; repeat f_equal; lra.
Qed.

Print Assumptions C18_broadcast_chunk.
Print Assumptions C18_update_chunk.
Print Assumptions C18_every_event_of_a_run.
Print Assumptions C18_beyond_the_recording.
Print Assumptions C19_samples_of_convolution.
Print Assumptions C19_out_of_range.
Print Assumptions C19_compression.
