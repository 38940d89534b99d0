(** Facts about the removal of silent frames. *)
From Verif Require Import Base BaseFacts ChunkSpec Level Stoi StoiSpec.
From Coq Require Import Reals Lra Sorted.
Local Open Scope R_scope.

Lemma win_hann L j : win L j = hann L j.
Proof. unfold win, hann. rewrite !Nat.add_1_r. field. Qed.
Lemma sumR_S n f : sumR (S n) f = sumR n f + f n. Proof. reflexivity. Qed.
Lemma sumR_ext n f g : (forall i, (i < n)%nat -> f i = g i) -> sumR n f = sumR n g.
Proof. induction n; intros H; cbn; [reflexivity|]. rewrite IHn, H by (auto; lia). reflexivity. Qed.
Lemma rsum_app a b : rsum (a ++ b) = rsum a + rsum b.
Proof. induction a; cbn [rsum app fold_right] in *; [unfold rsum; cbn [fold_right app]; ring|]. unfold rsum in *. cbn [fold_right app]. rewrite IHa. ring. Qed.
Lemma rsum_seq n f : rsum (map f (seq 0 n)) = sumR n f.
Proof. induction n; [reflexivity|]. rewrite seq_S, map_app, rsum_app, IHn. cbn [sumR map seq]. unfold rsum. cbn [fold_right Nat.add]. ring. Qed.
Lemma frame_energy_level x L i : frame_energy (frame x L i) = level x L i.
Proof.
  unfold frame_energy, level, frame, energy, log10, eps. rewrite map_map, rsum_seq. do 5 f_equal.
  apply sumR_ext. intros j _. rewrite win_hann. ring.
Qed.
Lemma frame_len x L i : length (frame x L i) = L.
Proof. unfold frame. now rewrite map_length, seq_length. Qed.
Lemma nth_frame x L i j : (j < L)%nat -> nth j (frame x L i) 0 = hann L j * nth (i + j) x 0.
Proof.
  intros H. unfold frame. rewrite (nth_indep (map _ _) 0 (win L 0 * nth (i + 0) x 0)) by (rewrite map_length, seq_length; exact H).
  change (win L 0 * nth (i + 0) x 0) with ((fun j => win L j * nth (i + j) x 0) 0%nat). rewrite map_nth, seq_nth, win_hann by exact H. reflexivity.
Qed.

Lemma n_frames_spec len L h k : (h <> 0)%nat -> (k < n_frames len L h)%nat <-> is_frame len L h k.
Proof.
  intros Hh. unfold n_frames, is_frame. split; intros H.
  - assert (S k * h <= len - L + (h - 1))%nat.
    { pose proof (Nat.mul_div_le (len - L + (h - 1)) h Hh). nia. }
    nia.
  - apply (Nat.div_le_lower_bound _ h (S k)) ; [exact Hh|]. nia.
Qed.

(** * maximum *)
Lemma fold_rmax r : forall a, a <= fold_left Rmax r a /\ (forall v, In v r -> v <= fold_left Rmax r a) /\ (fold_left Rmax r a = a \/ In (fold_left Rmax r a) r).
Proof.
  induction r as [|b r IH]; intros a; cbn [fold_left].
  - split; [lra|]. split; [intros v []|]. now left.
  - destruct (IH (Rmax a b)) as (H1 & H2 & H3). pose proof (Rmax_l a b). pose proof (Rmax_r a b). split; [lra|]. split.
    + intros v [<-|Hv]; [lra|]. now apply H2.
    + destruct H3 as [H3|H3]; [|right; now right]. rewrite H3. unfold Rmax. destruct (Rle_dec a b); [right; now left|now left].
Qed.
Lemma rmax_ge e v : In v e -> v <= rmax e.
Proof. destruct e as [|a r]; [intros []|]. intros [<-|H]; cbn; destruct (fold_rmax r a) as (H1 & H2 & _); auto. Qed.
Lemma rmax_in e : e <> [] -> In (rmax e) e.
Proof. destruct e as [|a r]; [congruence|]. intros _. cbn [rmax]. destruct (fold_rmax r a) as (_ & _ & [H|H]); [left; now rewrite H|now right]. Qed.

(** * selection *)
Lemma select_map {A B} (g : A -> bool) (f : A -> B) l : select_frames (map g l) (map f l) = map f (filter g l).
Proof.
  unfold select_frames. induction l as [|a l IH]; [reflexivity|]. cbn [map combine filter fst]. destruct (g a); cbn [map snd]; now rewrite IH.
Qed.
Lemma ssorted_seq n : forall s, StronglySorted lt (seq s n).
Proof. induction n; intros s; cbn; constructor; [apply IHn|]. apply Forall_forall. intros x Hx%in_seq. lia. Qed.
Lemma ssorted_filter (p : nat -> bool) l : StronglySorted lt l -> StronglySorted lt (filter p l).
Proof.
  induction 1; cbn [filter]; [constructor|]. destruct (p a); [|assumption]. constructor; [assumption|].
  apply Forall_forall. intros x [Hx _]%filter_In. rewrite Forall_forall in H0. auto.
Qed.

(** * overlap-add *)
Lemma add_at_len o fr z : length (add_at o fr z) = length z.
Proof. unfold add_at. rewrite map_length, combine_length, seq_length. lia. Qed.
Lemma nth_add_at o fr z n : (n < length z)%nat ->
  nth n (add_at o fr z) 0 = nth n z 0 + (if (o <=? n)%nat && (n <? o + length fr)%nat then nth (n - o) fr 0 else 0).
Proof.
  intros H. unfold add_at.
  set (F := fun p : nat * R => snd p + (if (o <=? fst p)%nat && (fst p <? o + length fr)%nat then nth (fst p - o) fr 0 else 0)).
  rewrite (nth_indep (map _ _) 0 (F (0%nat, 0))) by (rewrite map_length, combine_length, seq_length; lia).
  rewrite map_nth, combine_nth by apply seq_length. rewrite seq_nth by exact H. reflexivity.
Qed.
Lemma overlap_add_spec h n frs L : (forall f, In f frs -> length f = L) ->
  length (overlap_add h frs n) = n /\
  forall m, (m < n)%nat -> nth m (overlap_add h frs n) 0 =
    sumR (length frs) (fun i => if (i * h <=? m)%nat && (m <? i * h + L)%nat then nth (m - i * h) (nth i frs []) 0 else 0).
Proof.
  intros HL. unfold overlap_add.
  assert (G : forall s z, length (fold_left (fun z p => add_at (fst p * h) (snd p) z) (combine (seq s (length frs)) frs) z) = length z /\
    forall m, (m < length z)%nat -> nth m (fold_left (fun z p => add_at (fst p * h) (snd p) z) (combine (seq s (length frs)) frs) z) 0 =
    nth m z 0 + sumR (length frs) (fun i => if ((s + i) * h <=? m)%nat && (m <? (s + i) * h + L)%nat then nth (m - (s + i) * h) (nth i frs []) 0 else 0)).
  { induction frs as [|f frs IH]; intros s z; cbn [length seq combine fold_left].
    - split; [reflexivity|]. intros m _. cbn. ring.
    - destruct (IH (fun f Hf => HL f (or_intror Hf)) (S s) (add_at (s * h) f z)) as (A & B). cbn [fst snd].
      rewrite A, add_at_len. split; [reflexivity|]. intros m Hm. rewrite B by (rewrite add_at_len; exact Hm).
      rewrite nth_add_at by exact Hm. rewrite (HL f) by now left.
      assert (E : forall N F, sumR (S N) F = F 0%nat + sumR N (fun i => F (S i))).
      { intros N F. induction N; [cbn; ring|]. rewrite sumR_S, IHN, sumR_S. ring. }
      rewrite E. rewrite Nat.add_0_r. cbn [nth].
      rewrite (sumR_ext (length frs) _ (fun i => if ((s + S i) * h <=? m)%nat && (m <? (s + S i) * h + L)%nat then nth (m - (s + S i) * h) (nth i frs []) 0 else 0)).
      2: { intros i _. rewrite <- Nat.add_succ_comm. reflexivity. }
      ring. }
  destruct (G 0%nat (repeat 0 n)) as (A & B). rewrite repeat_length in *. split; [exact A|]. intros m Hm. rewrite B by exact Hm.
  rewrite nth_repeat. cbn [Nat.add]. ring.
Qed.

Lemma overlap_frames x L h kept n : 
  length (overlap_add h (map (fun k => frame x L (k * h)) kept) n) = n /\
  forall m, (m < n)%nat -> nth m (overlap_add h (map (fun k => frame x L (k * h)) kept) n) 0 = overlapped x L h kept m.
Proof.
  destruct (overlap_add_spec h n (map (fun k => frame x L (k * h)) kept) L) as (A & B).
  { intros f (k & <- & _)%in_map_iff. apply frame_len. }
  split; [exact A|]. intros m Hm. rewrite B by exact Hm. rewrite map_length. unfold overlapped. apply sumR_ext. intros i Hi.
  destruct ((i * h <=? m)%nat && (m <? i * h + L)%nat) eqn:E; [|reflexivity].
  rewrite (nth_indep (map _ _) [] (frame x L (0 * h))) by (rewrite map_length; exact Hi).
  change (frame x L (0 * h)) with ((fun k => frame x L (k * h)) 0%nat). rewrite map_nth. apply nth_frame. lia.
Qed.

Definition loud_b (x : list R) (dyn : R) (L h : nat) (k : nat) : bool :=
  if Rlt_dec (rmax (map (fun k => frame_energy (frame x L (k * h))) (seq 0 (n_frames (length x) L h))) - dyn - frame_energy (frame x L (k * h))) 0 then true else false.

Lemma loud_spec x dyn L h : (h <> 0)%nat -> loud_frames x dyn L h (filter (loud_b x dyn L h) (seq 0 (n_frames (length x) L h))).
Proof.
  intros Hh. split; [apply ssorted_filter, ssorted_seq|]. intros k. rewrite filter_In, in_seq. unfold loud_b.
  set (es := map _ (seq 0 _)). split.
  - intros ((_ & Hk) & Hl). split; [now apply n_frames_spec|]. intros j Hj%n_frames_spec; [|exact Hh].
    destruct (Rlt_dec _ _) as [HR|]; [|discriminate]. rewrite <- !frame_energy_level.
    assert (frame_energy (frame x L (j * h)) <= rmax es).
    { apply rmax_ge. apply (in_map (fun k => frame_energy (frame x L (k * h)))). apply in_seq. lia. }
    lra.
  - intros (Hk%n_frames_spec & Hl); [|exact Hh]. split; [lia|]. destruct (Rlt_dec _ _) as [HR|HR]; [reflexivity|]. exfalso. apply HR.
    assert (He : es <> []). { unfold es. destruct (n_frames (length x) L h); [lia|discriminate]. }
    pose proof (rmax_in es He) as Hin. apply in_map_iff in Hin as (j & Ej & Hj%in_seq). rewrite <- Ej.
    specialize (Hl j). rewrite !frame_energy_level. assert (is_frame (length x) L h j) by (apply n_frames_spec; [exact Hh|lia]). specialize (Hl H). lra.
Qed.

Lemma remove_spec x y dyn L h xs ys : remove_silent_frames x y dyn L h = Ok (xs, ys) ->
  exists kept, (h <> 0)%nat /\ loud_frames x dyn L h kept /\ kept = filter (loud_b x dyn L h) (seq 0 (n_frames (length x) L h)) /\
    (Z.of_nat (length xs) = (Z.of_nat (length kept) - 1) * Z.of_nat h + Z.of_nat L)%Z /\ length ys = length xs /\
    (forall n, (n < length xs)%nat -> nth n xs 0 = overlapped x L h kept n) /\
    (forall n, (n < length ys)%nat -> nth n ys 0 = overlapped y L h kept n).
Proof.
  unfold remove_silent_frames. destruct (Nat.eqb_spec h 0) as [|Hh]; [discriminate|].
  destruct (Nat.eqb_spec (n_frames (length x) L h) 0) as [|Hn]; [discriminate|].
  destruct (Nat.ltb_spec (length y) ((n_frames (length x) L h - 1) * h + L)) as [|Hy]; [discriminate|].
  unfold mask. rewrite !map_map. change (fun x0 => if Rlt_dec _ 0 then true else false) with (loud_b x dyn L h).
  rewrite !select_map, map_length.
  set (kept := filter _ _). destruct (Z.ltb_spec ((Z.of_nat (length kept) - 1) * Z.of_nat h + Z.of_nat L) 0) as [|Hs]; [discriminate|].
  intros E. injection E as <- <-. exists kept. split; [exact Hh|]. split; [now apply loud_spec|]. split; [reflexivity|].
  set (n := Z.to_nat _). destruct (overlap_frames x L h kept n) as (A & B). destruct (overlap_frames y L h kept n) as (A' & B').
  rewrite A, A'. split; [unfold n; lia|]. split; [reflexivity|]. now split.
Qed.

Lemma remove_ok x y dyn L h : (0 < h)%nat -> (h <= L)%nat -> (L < length x)%nat -> length y = length x ->
  exists xs ys, remove_silent_frames x y dyn L h = Ok (xs, ys).
Proof.
  intros Hh HL Hx Hy. unfold remove_silent_frames. destruct (Nat.eqb_spec h 0); [lia|].
  assert (Hn : (0 < n_frames (length x) L h)%nat) by (apply n_frames_spec; unfold is_frame; lia).
  destruct (Nat.eqb_spec (n_frames (length x) L h) 0); [lia|].
  assert (Hl : is_frame (length x) L h (n_frames (length x) L h - 1)) by (apply n_frames_spec; lia). unfold is_frame in Hl.
  destruct (Nat.ltb_spec (length y) ((n_frames (length x) L h - 1) * h + L)); [lia|].
  destruct (Z.ltb_spec ((Z.of_nat (length (select_frames (mask (map frame_energy (map (fun k => frame x L (k * h)) (seq 0 (n_frames (length x) L h)))) dyn) (map (fun k => frame x L (k * h)) (seq 0 (n_frames (length x) L h))))) - 1) * Z.of_nat h + Z.of_nat L) 0); [nia|].
  eauto.
Qed.

Lemma loudest_kept x dyn L h kept : (0 < h)%nat -> (L < length x)%nat -> 0 < dyn -> loud_frames x dyn L h kept -> kept <> [].
Proof.
  intros Hh HL Hd (_ & Hk) ->.
  assert (Hn : (0 < n_frames (length x) L h)%nat) by (apply n_frames_spec; unfold is_frame; lia).
  set (es := map (fun k => level x L (k * h)) (seq 0 (n_frames (length x) L h))).
  assert (He : es <> []) by (unfold es; destruct (n_frames (length x) L h); [lia|discriminate]).
  pose proof (rmax_in es He) as Hin. apply in_map_iff in Hin as (k & Ek & Hkin%in_seq).
  apply (Hk k). split; [apply n_frames_spec; lia|]. intros j Hj%n_frames_spec; [|lia]. rewrite Ek.
  assert (level x L (j * h) <= rmax es) by (apply rmax_ge, (in_map (fun k => level x L (k * h))), in_seq; lia). lra.
Qed.

(** * nothing dropped *)
Lemma filter_all {A} (p : A -> bool) l : (forall a, In a l -> p a = true) -> filter p l = l.
Proof. induction l as [|a l IH]; intros H; [reflexivity|]. cbn. rewrite (H a) by now left. rewrite IH; [reflexivity|]. intros b Hb. apply H. now right. Qed.

Lemma sumR_zero n f : (forall i, (i < n)%nat -> f i = 0) -> sumR n f = 0.
Proof. induction n; intros H; cbn; [reflexivity|]. rewrite IHn, H by (auto; lia). ring. Qed.
Lemma sumR_two n f k : (S k < n)%nat -> (forall i, (i < n)%nat -> i <> k -> i <> S k -> f i = 0) -> sumR n f = f k + f (S k).
Proof.
  induction n; intros Hk H; [lia|]. rewrite sumR_S. destruct (Nat.eq_dec n (S k)) as [->|E].
  - rewrite sumR_S, sumR_zero; [ring|]. intros i Hi. apply H; lia.
  - rewrite IHn by (try lia; intros; apply H; lia). rewrite (H n) by lia. ring.
Qed.

Lemma overlapped_all x h nf n : (0 < h)%nat -> (h <= n)%nat -> (n < nf * h)%nat ->
  overlapped x (2 * h) h (seq 0 nf) n = (hann (2 * h) (n mod h) + hann (2 * h) (n mod h + h)) * nth n x 0.
Proof.
  intros Hh H1 H2. unfold overlapped. rewrite seq_length.
  pose proof (Nat.div_mod n h ltac:(lia)) as E. pose proof (Nat.mod_upper_bound n h ltac:(lia)) as Hr.
  set (q := (n / h)%nat) in *. set (r := (n mod h)%nat) in *.
  assert (q <> 0)%nat by (intros ->; lia). assert (q < nf)%nat by nia. destruct q as [|q]; [lia|].
  rewrite (sumR_two _ _ q); [|lia|].
  2: { intros i Hi A B. destruct (Nat.leb_spec (i * h) n); [|reflexivity]. destruct (Nat.ltb_spec n (i * h + 2 * h)); [|reflexivity]. exfalso. nia. }
  destruct (Nat.leb_spec (q * h) n) as [G1|G1]; [|nia]. destruct (Nat.ltb_spec n (q * h + 2 * h)) as [G2|G2]; [|nia].
  destruct (Nat.leb_spec (S q * h) n) as [G3|G3]; [|nia]. destruct (Nat.ltb_spec n (S q * h + 2 * h)) as [G4|G4]; [|nia]. cbn [andb].
  rewrite !seq_nth by lia. cbn [Nat.add].
  replace (n - q * h)%nat with (r + h)%nat by nia. replace (n - S q * h)%nat with r by nia.
  replace (q * h + (r + h))%nat with n by nia. replace (S q * h + r)%nat with n by nia. ring.
Qed.

Lemma hann_gain h j : Rabs (hann (2 * h) j + hann (2 * h) (j + h) - 1) <= PI / (2 * INR (2 * h + 1)).
Proof.
  unfold hann. set (N := INR (2 * h + 1)).
  assert (HN : 1 <= N). { unfold N. rewrite plus_INR. pose proof (pos_INR (2 * h)). cbn [INR]. lra. }
  set (a := 2 * PI * INR (j + 1) / N). set (d := PI / N).
  assert (Hd : 0 < d <= PI). { unfold d. pose proof PI_RGT_0. split; [apply Rdiv_lt_0_compat; lra|]. apply (Rmult_le_reg_r N); [lra|]. unfold Rdiv. rewrite Rmult_assoc, Rinv_l by lra. nra. }
  assert (E : 2 * PI * INR (j + h + 1) / N = (a - d) + PI).
  { unfold a, d. assert (EN : 2 * INR h = N - 1). { unfold N. rewrite plus_INR, mult_INR. cbn [INR]. ring. }
    rewrite (plus_INR (j + h)), (plus_INR j h), (plus_INR j 1). replace (INR h) with ((N - 1) / 2) by lra. field. lra. }
  rewrite E, neg_cos. replace ((1 - cos a) / 2 + (1 - - cos (a - d)) / 2 - 1) with ((cos (a - d) - cos a) / 2) by field.
  rewrite form2. replace ((a - d - a) / 2) with (- (d / 2)) by field. rewrite sin_neg.
  replace (-2 * - sin (d / 2) * sin ((a - d + a) / 2) / 2) with (sin ((a - d + a) / 2) * sin (d / 2)) by field.
  rewrite Rabs_mult. replace (PI / (2 * N)) with (1 * (d / 2)) by (unfold d; field; lra).
  apply Rmult_le_compat; try apply Rabs_pos.
  - apply Rabs_le. destruct (SIN_bound ((a - d + a) / 2)). lra.
  - assert (0 <= sin (d / 2)) by (apply sin_ge_0; lra). rewrite Rabs_right by lra. apply Rlt_le, sin_lt_x. lra.
Qed.
