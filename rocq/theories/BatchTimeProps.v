(** Theorems about the time-domain estimates of batch runs and of the best performance
    reference (C88). *)
From Verif Require Import Base BaseFacts Cx CxFacts ChunkSpec ChunkFacts WolaFacts Scm SigGen BatchTime BatchTimeFacts.
From Coq Require Import Reals Lra QArith.
Local Open Scope R_scope.

(** The frames of a signal are the fewest that cover all its samples; there are as many as
    iterations if the last one is full, otherwise one more. *)
Theorem C88_frames L H N : (0 < H)%nat -> (H <= L)%nat -> (L <= N)%nat -> exists F, stft_frames L H N = Ok F /\
  (1 <= F)%nat /\ (N <= (F - 1) * H + L)%nat /\ (forall F', (1 <= F')%nat -> (N <= (F' - 1) * H + L)%nat -> (F <= F')%nat) /\
  (n_iter L H N = F <-> N = ((F - 1) * H + L)%nat) /\ (n_iter L H N = F \/ n_iter L H N = F - 1)%nat.
Proof.
  intros HH HL HN. rewrite (frames_val L H N HH HL HN). pose proof (covered L H N HH HN) as C. rewrite n_iter_val in * by assumption. set (a := ((N - L) / H)%nat) in *. pose proof (Nat.div_mod (N - L) H ltac:(lia)) as D. fold a in D. pose proof (Nat.mod_upper_bound (N - L) H ltac:(lia)) as B.
  eexists. split; [reflexivity|]. destruct (Nat.eqb_spec ((N - L) mod H) 0) as [E|E].
  - rewrite E in D. replace (a + 1 - 1)%nat with a in * by lia. split; [lia|]. split; [nia|]. split; [|split; [split; intros; nia|left; reflexivity]]. intros F' H1 H2. destruct (le_lt_dec (a + 1) F'); [assumption|]. assert ((F' - 1) * H < a * H)%nat by (apply Nat.mul_lt_mono_pos_r; lia). nia.
  - replace (a + 1 + 1 - 1)%nat with (a + 1)%nat in * by lia. replace (a + 1 - 1)%nat with a in * by lia. split; [lia|]. split; [nia|]. split; [|split; [split; intros; nia|right; reflexivity]].
    intros F' H1 H2. destruct (le_lt_dec (a + 1 + 1) F'); [assumption|]. assert ((F' - 1) * H <= a * H)%nat by (apply Nat.mul_le_mono_r; lia). nia.
Qed.

(** The best performance reference always has an estimate, as long as the signals. *)
Theorem C88_best_total q H w N C x g : (0 < H)%nat -> (H <= 2 * q)%nat -> (2 * q <= N)%nat -> exists d, best_estimate q H w N C x g = Ok d /\ length d = N.
Proof.
  intros HH HL HN. unfold best_estimate. rewrite (frames_val _ _ _ HH HL HN). cbn [bind]. destruct (covered (2 * q) H N HH HN) as [C1 C2].
  assert (T : exists d, to_time q H w N (n_iter (2 * q) H N) (combine_channels q H w N C x g) = Ok d /\ length d = N).
  { unfold to_time. destruct (Nat.ltb_spec N (2 * q + (n_iter (2 * q) H N - 1) * H)); [lia|]. eexists. split; [reflexivity|]. now rewrite map_length, seq_length. }
  destruct (Nat.eqb_spec ((N - 2 * q) mod H) 0); [rewrite Nat.eqb_refl; exact T|]. rewrite Nat.eqb_refl, Bool.orb_true_r. exact T.
Qed.

Lemma best_nth q H w N C x g d n : (0 < H)%nat -> (H <= 2 * q)%nat -> (2 * q <= N)%nat -> best_estimate q H w N C x g = Ok d -> (n < N)%nat ->
  nth n d 0 = (if Nat.ltb n (2 * q + (n_iter (2 * q) H N - 1) * H) then istft q H w (n_iter (2 * q) H N) (combine_channels q H w N C x g) n else 0) / wsum q w.
Proof.
  intros HH HL HN E Hn. unfold best_estimate in E. apply bind_ok in E. destruct E as (F & _ & E). destruct (_ || _); [|discriminate]. unfold to_time in E. destruct (Nat.ltb N _); [discriminate|].
  match type of E with Ok ?l = Ok d => assert (ED : d = l) by congruence end. rewrite ED. apply (nth_map_seq (fun n => (if Nat.ltb n (2 * q + (n_iter (2 * q) H N - 1) * H) then istft q H w (n_iter (2 * q) H N) (combine_channels q H w N C x g) n else 0) / wsum q w) 0 N n Hn).
Qed.

(** Speech and noise pass the reference separately: the estimates from speech and from noise
    add up to the estimate from their sum, for the same filters. *)
Theorem C88_superposition q H w N C s v g d ds dv n : (0 < H)%nat -> (H <= 2 * q)%nat -> (2 * q <= N)%nat -> wsum q w <> 0 ->
  best_estimate q H w N C (fun c i => s c i + v c i) g = Ok d -> best_estimate q H w N C s g = Ok ds -> best_estimate q H w N C v g = Ok dv ->
  (n < N)%nat -> nth n d 0 = nth n ds 0 + nth n dv 0.
Proof.
  intros HH HL HN HW E1 E2 E3 Hn. rewrite (best_nth _ _ _ _ _ _ _ _ _ HH HL HN E1 Hn), (best_nth _ _ _ _ _ _ _ _ _ HH HL HN E2 Hn), (best_nth _ _ _ _ _ _ _ _ _ HH HL HN E3 Hn).
  destruct (Nat.ltb _ _); [|unfold Rdiv; ring]. rewrite (istft_ext q H w _ _ (fun t f => combine_channels q H w N C s g t f + combine_channels q H w N C v g t f)%cx) by (intros; apply combine_add; exact HW).
  rewrite istft_add. unfold Rdiv. ring.
Qed.

(** A filter that selects a channel gives this channel back, up to the end of the last
    complete frame, wherever the windows do not vanish; zeros follow, for less than a hop. *)
Theorem C88_transparent q H w N C x c d n : (0 < q)%nat -> (0 < H)%nat -> (H <= 2 * q)%nat -> (2 * q <= N)%nat -> wsum q w <> 0 -> (c < C)%nat ->
  best_estimate q H w N C x (fun _ i => if Nat.eqb i c then cone else czero) = Ok d -> (n < N)%nat ->
  let last := (2 * q + (n_iter (2 * q) H N - 1) * H)%nat in
  ((n < last)%nat -> / 10 ^ 10 < energy q H w (n_iter (2 * q) H N) n -> nth n d 0 = x c n) /\ ((last <= n)%nat -> nth n d 0 = 0) /\ (N - last < H)%nat.
Proof.
  intros Hq HH HL HN HW Hc E Hn last. rewrite (best_nth _ _ _ _ _ _ _ _ _ HH HL HN E Hn). fold last. destruct (covered (2 * q) H N HH HN) as [C1 C2]. fold last in C1.
  split; [|split].
  - intros Hl He. destruct (Nat.ltb_spec n last); [|lia]. rewrite (istft_ext q H w _ _ (y_stft q H w N (x c))).
    + rewrite istft_stft by assumption. field. exact HW.
    + intros t f _ _. unfold combine_channels. rewrite (csum_single C _ c Hc); [rewrite Nat.eqb_refl; unfold cone; rewrite conj_cr; change (cr 1) with cone; ring|]. intros i _ Hi. destruct (Nat.eqb_spec i c); [contradiction|]. unfold czero. rewrite conj_cr. change (cr 0) with czero. ring.
  - intros Hl. destruct (Nat.ltb_spec n last); [lia|]. field. exact HW.
  - unfold last. pose proof (n_iter_val (2 * q) H N HH HN). nia.
Qed.

(** Batch runs: the same estimates, unless the last frame is full. *)
Theorem C88_batch_same q H w N C x g : (0 < H)%nat -> (H <= 2 * q)%nat -> (2 * q <= N)%nat -> ((N - 2 * q) mod H <> 0)%nat ->
  batch_estimate q H w N C x g = best_estimate q H w N C x g.
Proof.
  intros HH HL HN E. unfold batch_estimate, best_estimate. rewrite (frames_val _ _ _ HH HL HN). cbn [bind]. apply Nat.eqb_neq in E. rewrite E. rewrite Nat.eqb_refl, Bool.orb_true_r. replace (n_iter (2 * q) H N + 1 - 1)%nat with (n_iter (2 * q) H N) by lia. rewrite Nat.eqb_refl. reflexivity.
Qed.
(** As the code stands, batch runs over signals that end with a full frame fail, whatever the
    filters, unless there are two frames... *)
Theorem C88_full_frame_refuted q H w N C x g : (0 < H)%nat -> (H <= 2 * q)%nat -> (2 * q <= N)%nat -> ((N - 2 * q) mod H = 0)%nat -> N <> (2 * q + H)%nat ->
  batch_estimate q H w N C x g = Err ValueError.
Proof.
  intros HH HL HN E HD. unfold batch_estimate. rewrite (frames_val _ _ _ HH HL HN). cbn [bind]. rewrite E. cbn [Nat.eqb]. assert (V := n_iter_val (2 * q) H N HH HN). pose proof (Nat.div_mod (N - 2 * q) H ltac:(lia)) as D. rewrite E in D.
  destruct (Nat.eqb_spec (n_iter (2 * q) H N - 1) (n_iter (2 * q) H N)); [lia|]. destruct (Nat.eqb_spec (n_iter (2 * q) H N - 1) 1) as [E1|]; [|reflexivity]. exfalso. replace ((N - 2 * q) / H)%nat with 1%nat in D by lia. lia.
Qed.
(** ... in which case the first frame is taken for both: the estimate depends on the first
    frame of the signals only. *)
Theorem C88_two_frames_refuted q H w C x x' g : (0 < H)%nat -> (H <= 2 * q)%nat -> (forall c n, (n < 2 * q)%nat -> x c n = x' c n) ->
  batch_estimate q H w (2 * q + H) C x g = batch_estimate q H w (2 * q + H) C x' g.
Proof.
  intros HH HL E. unfold batch_estimate. assert (HN : (2 * q <= 2 * q + H)%nat) by lia. rewrite (frames_val _ _ _ HH HL HN). cbn [bind]. rewrite n_iter_val by assumption. replace (2 * q + H - 2 * q)%nat with H by lia. rewrite Nat.mod_same, Nat.div_same by lia. cbn [Nat.eqb Nat.add Nat.sub].
  unfold to_time. destruct (Nat.ltb _ _); [reflexivity|]. f_equal. apply map_ext. intros n. destruct (Nat.ltb _ _); [|reflexivity]. f_equal. apply istft_ext. intros t f _ _. unfold combine_channels. apply csum_ext. intros c _. f_equal. unfold y_stft, stft. do 2 f_equal. apply dft_ext. intros m Hm. cbn [Nat.mul Nat.add]. unfold padded. destruct (Nat.ltb _ _); [rewrite E by exact Hm|]; reflexivity.
Qed.

(** The activity of the frames: with half overlap or more there is one for every frame of the
    signal, so that the correlation matrices can be estimated. *)
Lemma vad_loop_length flen shift prop vad : forall todo ii, (todo <= length vad / shift - ii)%nat -> (0 < shift)%nat ->
  (forall j, (ii <= j < ii + todo)%nat -> (j * shift + flen <= length vad)%nat) -> (length (vad_loop flen shift prop vad todo ii) = todo)%nat.
Proof.
  induction todo as [|todo IH]; intros ii Ht Hs Hj; [reflexivity|]. cbn [vad_loop]. destruct (Nat.ltb_spec (length vad) (ii * shift + flen)) as [C|C]; [exfalso; specialize (Hj ii ltac:(lia)); lia|]. cbn [length]. f_equal. apply IH; [lia|exact Hs|]. intros j Hj'. apply Hj. lia.
Qed.
Lemma vad_loop_at_least flen shift prop vad : forall todo ii m, (m <= todo)%nat -> (forall j, (ii <= j)%nat -> (S j < ii + m)%nat -> (j * shift + flen <= length vad)%nat) -> (m <= length (vad_loop flen shift prop vad todo ii))%nat.
Proof.
  induction todo as [|todo IH]; intros ii m Hm Hj; [lia|]. cbn [vad_loop]. destruct (Nat.ltb_spec (length vad) (ii * shift + flen)) as [C|C].
  - destruct m as [|[|m]]; [lia|cbn; lia|]. exfalso. specialize (Hj ii ltac:(lia) ltac:(lia)). lia.
  - destruct m as [|m]; [lia|]. cbn [length]. apply le_n_S, IH; [lia|]. intros j H1 H2. apply Hj; lia.
Qed.
Theorem C88_activity L H prop vad v (ys : list (nat -> nat -> cx)) F : (0 < H)%nat -> (2 * H <= L)%nat -> (L <= length vad)%nat ->
  stft_frames L H (length vad) = Ok F -> length ys = F -> vad_per_frame L H prop vad = Ok v -> exists r, covmats_batch ys v = Ok r.
Proof.
  intros HH HL HN EF Ly Ev. rewrite (frames_val L H (length vad) HH ltac:(lia) HN) in EF. injection EF as EF. assert (V := n_iter_val L H (length vad) HH HN).
  assert (HF : (F <= n_iter L H (length vad) + 1)%nat) by (rewrite <- EF; destruct (Nat.eqb _ _); lia). pose proof (covered L H (length vad) HH HN) as [C1 C2].
  assert (B : (n_iter L H (length vad) + 1 <= length vad / H)%nat). { apply Nat.div_le_lower_bound; [lia|]. nia. }
  unfold vad_per_frame in Ev. destruct vad as [|b vad]; [cbn in HN; lia|]. set (vd := b :: vad) in *. destruct (Nat.eqb_spec H 0); [lia|]. assert (Ev' : v = vad_loop L H prop vd (length vd / H) 0) by congruence. rewrite Ev'.
  assert (LV : (F <= length (vad_loop L H prop vd (length vd / H) 0))%nat). { apply vad_loop_at_least; [lia|]. intros j _ Hj. assert (j * H <= (n_iter L H (length vd) - 1) * H)%nat by (apply Nat.mul_le_mono_r; lia). lia. }
  unfold covmats_batch. cbv zeta. rewrite Ly. destruct (Nat.ltb_spec F (length (vad_loop L H prop vd (length vd / H) 0))) as [G|G].
  - rewrite firstn_length, Nat.min_l by lia. rewrite Nat.eqb_refl. eexists. reflexivity.
  - replace (length (vad_loop L H prop vd (length vd / H) 0)) with F by lia. rewrite Nat.eqb_refl. eexists. reflexivity.
Qed.
(** Without overlap, the activity of the last, incomplete frame is missing: no matrices. *)
Theorem C88_no_overlap_refuted L prop vad v (ys : list (nat -> nat -> cx)) F : (0 < L)%nat -> (L <= length vad)%nat -> (length vad mod L <> 0)%nat ->
  stft_frames L L (length vad) = Ok F -> length ys = F -> vad_per_frame L L prop vad = Ok v -> covmats_batch ys v = Err IndexError.
Proof.
  intros HH HN HM EF Ly Ev. rewrite (frames_val L L (length vad) HH ltac:(lia) HN) in EF. injection EF as EF. rewrite (n_iter_val L L (length vad) HH HN) in EF.
  assert (ED : (length vad / L = (length vad - L) / L + 1)%nat) by (rewrite <- (Nat.div_add _ 1) by lia; f_equal; lia). assert (EM : ((length vad - L) mod L = length vad mod L)%nat) by (rewrite <- (Nat.mod_add (length vad - L) 1) by lia; f_equal; lia).
  rewrite EM in EF. destruct (Nat.eqb_spec (length vad mod L) 0); [contradiction|].
  unfold vad_per_frame in Ev. destruct vad as [|b vad]; [cbn in HN; lia|]. set (vd := b :: vad) in *. destruct (Nat.eqb_spec L 0); [lia|]. assert (Ev' : v = vad_loop L L prop vd (length vd / L) 0) by congruence. rewrite Ev'.
  assert (LV : (length (vad_loop L L prop vd (length vd / L) 0) = length vd / L)%nat). { apply vad_loop_length; [lia|exact HH|]. intros j Hj. pose proof (Nat.mul_div_le (length vd) L ltac:(lia)). assert ((j + 1) * L <= (length vd / L) * L)%nat by (apply Nat.mul_le_mono_r; lia). nia. }
  unfold covmats_batch. cbv zeta. rewrite Ly, LV. destruct (Nat.ltb_spec F (length vd / L)); [lia|]. rewrite LV. destruct (Nat.eqb_spec (length vd / L) F); [lia|reflexivity].
Qed.

(** The cost of an estimate: never negative, zero exactly if it is right for all samples but
    those at the ends; missing if the signal has no other samples. *)
Lemma slice_nth a b (l : list R) i : (a + i < b)%nat -> (b <= length l)%nat -> nth i (slice a b l) 0 = nth (a + i) l 0.
Proof.
  intros H1 H2. unfold slice. rewrite <- (firstn_skipn a l) at 2. rewrite app_nth2; rewrite firstn_length, Nat.min_l by lia; [|lia]. replace (a + i - a)%nat with i by lia.
  rewrite <- (firstn_skipn (b - a) (skipn a l)) at 2. rewrite app_nth1; [reflexivity|]. rewrite firstn_length, skipn_length. lia.
Qed.
Lemma slice_len a b (l : list R) : (b <= length l)%nat -> length (slice a b l) = (b - a)%nat.
Proof. intros H. unfold slice. rewrite firstn_length, skipn_length. lia. Qed.
Lemma sumR_sq n f : 0 <= sumR n (fun i => f i * f i) /\ (sumR n (fun i => f i * f i) = 0 <-> forall i, (i < n)%nat -> f i = 0).
Proof.
  induction n as [|n [P Z]]; cbn; [split; [lra|split; [intros _ i Hi; lia|reflexivity]]|]. assert (Q := Rle_0_sqr (f n)). unfold Rsqr in Q. split; [lra|]. split.
  - intros E i Hi. assert (E1 : sumR n (fun i => f i * f i) = 0) by lra. destruct (Nat.eq_dec i n) as [->|]; [|apply Z; [exact E1|lia]]. assert (f n * f n = 0) by lra. apply Rmult_integral in H. tauto.
  - intros E. rewrite (proj2 Z) by (intros; apply E; lia). rewrite (E n) by lia. ring.
Qed.
Theorem C88_cost cut s d : length d = length s ->
  ((length s <= 2 * cut)%nat -> mse_cost cut s d = None) /\
  ((2 * cut < length s)%nat -> exists c, mse_cost cut s d = Some c /\ 0 <= c /\ (c = 0 <-> forall n, (cut <= n < length s - cut)%nat -> nth n d 0 = nth n s 0)).
Proof.
  intros HL. unfold mse_cost. assert (Ls : length (slice cut (length s - cut) s) = (length s - cut - cut)%nat) by (apply slice_len; lia). split.
  - intros Hc. destruct (slice cut (length s - cut) s) eqn:E; [reflexivity|]. cbn in Ls. lia.
  - intros Hc. destruct (slice cut (length s - cut) s) as [|a l] eqn:E; [cbn in Ls; lia|]. rewrite <- E. eexists. split; [reflexivity|]. rewrite E, Ls, <- E, HL. set (m := (length s - cut - cut)%nat). set (f := fun i => nth i (slice cut (length s - cut) s) 0 - nth i (slice cut (length s - cut) d) 0).
    assert (Hm : 0 < INR m) by (apply lt_0_INR; unfold m; lia). destruct (sumR_sq m f) as [P Z]. fold (f : nat -> R). change (fun i => (nth i (slice cut (length s - cut) s) 0 - nth i (slice cut (length s - cut) d) 0) * (nth i (slice cut (length s - cut) s) 0 - nth i (slice cut (length s - cut) d) 0)) with (fun i => f i * f i).
    assert (Ev : forall i, (i < m)%nat -> f i = nth (cut + i) s 0 - nth (cut + i) d 0) by (intros i Hi; unfold f; rewrite !slice_nth by (unfold m in Hi; lia); reflexivity).
    split; [apply Rmult_le_pos; [exact P|apply Rlt_le, Rinv_0_lt_compat, Hm]|]. split.
    + intros Hz n Hn. assert (E0 : sumR m (fun i => f i * f i) = 0) by (apply Rmult_eq_reg_r with (/ INR m); [rewrite Rmult_0_l; exact Hz|apply Rinv_neq_0_compat; lra]). assert (F0 := proj1 Z E0 (n - cut)%nat ltac:(unfold m; lia)). rewrite Ev in F0 by (unfold m; lia). replace (cut + (n - cut))%nat with n in F0 by lia. lra.
    + intros Hd. rewrite (proj2 Z); [unfold Rdiv; ring|]. intros i Hi. rewrite Ev by exact Hi. rewrite Hd by (unfold m in Hi; lia). ring.
Qed.
(** As the code stands, the ends are not counted: a cost of zero does not mean that the
    estimate is right. *)
Theorem C88_cost_ends_refuted cut : (0 < cut)%nat -> exists s d, length d = length s /\ (2 * cut < length s)%nat /\ d <> s /\ mse_cost cut s d = Some 0.
Proof.
  intros Hc. set (s := repeat 0 (2 * cut + 1)). set (d := 1 :: repeat 0 (2 * cut)). exists s, d. assert (Ls : length s = (2 * cut + 1)%nat) by (unfold s; now rewrite repeat_length). assert (Ld : length d = (2 * cut + 1)%nat) by (unfold d; cbn; rewrite repeat_length; lia).
  split; [lia|]. split; [lia|]. split.
  - unfold d, s. replace (2 * cut + 1)%nat with (S (2 * cut)) by lia. cbn. intros E. injection E as E. lra.
  - destruct (C88_cost cut s d ltac:(lia)) as [_ C]. destruct (C ltac:(lia)) as (c & -> & _ & Z). f_equal. apply Z. intros n Hn. unfold d, s. destruct n as [|n]; [lia|]. cbn [nth]. rewrite !nth_repeat. reflexivity.
Qed.

(** Four samples, frames of two with a hop of one, rectangular window: two complete frames
    for three samples, three for four. *)
Example C88_ex_frames : stft_frames 2 1 4 = Ok 3%nat /\ n_iter 2 1 4 = 3%nat /\ stft_frames 4 2 7 = Ok 3%nat /\ n_iter 4 2 7 = 2%nat /\ stft_frames 4 2 3 = Err ValueError.
Proof. repeat split. Qed.
Lemma ex_energy n : (n < 6)%nat -> / 10 ^ 10 < energy 2 2 (fun _ => 1) 2 n.
Proof.
  intros Hn. assert (B : / 10 ^ 10 < 1) by (rewrite <- Rinv_1; apply Rinv_lt_contravar; [rewrite Rmult_1_l; apply pow_lt; lra|cbn; lra]). unfold energy, covers. do 6 (destruct n as [|n]; [cbn; lra|]). lia.
Qed.
Example C88_ex_transparent : exists d, best_estimate 2 2 (fun _ => 1) 7 2 (fun c n => INR (10 * c + n)) (fun _ i => if Nat.eqb i 1 then cone else czero) = Ok d /\ nth 3 d 0 = 13 /\ nth 5 d 0 = 15 /\ nth 6 d 0 = 0.
Proof.
  destruct (C88_best_total 2 2 (fun _ => 1) 7 2 (fun c n => INR (10 * c + n)) (fun _ i => if Nat.eqb i 1 then cone else czero) ltac:(lia) ltac:(lia) ltac:(lia)) as (d & E & _). exists d. split; [exact E|].
  assert (HW : wsum 2 (fun _ => 1) <> 0) by (unfold wsum; cbn; lra).
  assert (T := fun n Hn => C88_transparent 2 2 (fun _ => 1) 7 2 _ 1 d n ltac:(lia) ltac:(lia) ltac:(lia) ltac:(lia) HW ltac:(lia) E Hn). cbn zeta in T. change (n_iter (2 * 2) 2 7) with 2%nat in T. cbn [Nat.mul Nat.add Nat.sub] in T.
  split; [|split].
  - rewrite (proj1 (T 3%nat ltac:(lia)) ltac:(lia) (ex_energy 3 ltac:(lia))). cbn. lra.
  - rewrite (proj1 (T 5%nat ltac:(lia)) ltac:(lia) (ex_energy 5 ltac:(lia))). cbn. lra.
  - apply (proj1 (proj2 (T 6%nat ltac:(lia)))). lia.
Qed.
Example C88_ex_activity : vad_per_frame 4 2 (1 # 2) [true; true; false; false; false; false; true] = Ok [true; false; false] /\ vad_per_frame 4 4 (1 # 2) [true; true; false; false; false] = Ok [true] /\ stft_frames 4 4 5 = Ok 2%nat.
Proof. repeat split. Qed.

Print Assumptions C88_frames.
Print Assumptions C88_best_total.
Print Assumptions C88_superposition.
Print Assumptions C88_transparent.
Print Assumptions C88_batch_same.
Print Assumptions C88_full_frame_refuted.
Print Assumptions C88_two_frames_refuted.
Print Assumptions C88_activity.
Print Assumptions C88_no_overlap_refuted.
Print Assumptions C88_cost.
Print Assumptions C88_cost_ends_refuted.
