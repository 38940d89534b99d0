(** Lemmas about Wola.v. *)
From Verif Require Import Base BaseFacts Cx CxFacts Wola ChunkFacts.
From Coq Require Import Reals Lra.
Open Scope nat_scope.

Lemma nth_map_seq {B} (f : nat -> B) d n i : i < n -> nth i (map f (seq 0 n)) d = f i.
Proof.
  intros H. rewrite (nth_indep _ d (f 0)) by (rewrite map_length, seq_length; exact H).
  rewrite map_nth, seq_nth by exact H. reflexivity.
Qed.
Lemma nth_removelast {A} (l : list A) d i : i < length l - 1 -> nth i (removelast l) d = nth i l d.
Proof.
  revert i; induction l as [|x l IH]; intros i H; [simpl in H; lia|]. destruct l as [|y l]; [simpl in H; lia|].
  change (removelast (x :: y :: l)) with (x :: removelast (y :: l)). destruct i as [|i]; [reflexivity|].
  cbn [nth]. apply IH. simpl in *. lia.
Qed.
Lemma removelast_length {A} (l : list A) : length (removelast l) = length l - 1.
Proof.
  induction l as [|x l IH]; [reflexivity|]. destruct l as [|y l]; [reflexivity|].
  change (removelast (x :: y :: l)) with (x :: removelast (y :: l)). cbn [length] in *. rewrite IH. lia.
Qed.
Lemma nth_upd {A} i j (x d : A) l : i < length l -> nth j (upd i x l) d = if Nat.eqb i j then x else nth j l d.
Proof.
  revert i j; induction l as [|y l IH]; intros [|i] [|j] H; simpl in *; try lia; try reflexivity.
  apply IH. lia.
Qed.

Lemma real_ends_length x : length (real_ends x) = length x.
Proof. unfold real_ends. rewrite !upd_length. reflexivity. Qed.
Lemma real_ends_nth x i : 0 < length x ->
  nth i (real_ends x) czero = if Nat.eqb i 0 || Nat.eqb i (length x - 1) then cr (re (nth i x czero)) else nth i x czero.
Proof.
  intros H. unfold real_ends. rewrite nth_upd by (rewrite upd_length; lia).
  rewrite !nth_upd by lia.
  destruct (Nat.eqb_spec (length x - 1) i) as [<-|N1].
  - rewrite Nat.eqb_refl, orb_true_r. destruct (Nat.eqb_spec 0 (length x - 1)) as [E|]; [rewrite <- E; reflexivity | reflexivity].
  - destruct (Nat.eqb_spec i (length x - 1)); [congruence|]. rewrite orb_false_r.
    destruct (Nat.eqb_spec 0 i) as [<-|]; [reflexivity|]. destruct (Nat.eqb_spec i 0); [lia | reflexivity].
Qed.

(** the Hermitian extension *)
Definition full_of (x' : list cx) := x' ++ removelast (rev (map conj (removelast x'))).
Lemma full_length x' q : length x' = q + 1 -> 0 < q -> length (full_of x') = 2 * q.
Proof. intros H Hq. unfold full_of. rewrite app_length, removelast_length, rev_length, map_length, removelast_length. lia. Qed.
Lemma full_low x' i : i < length x' -> nth i (full_of x') czero = nth i x' czero.
Proof. intros H. unfold full_of. apply app_nth1, H. Qed.
Lemma full_high x' q k : length x' = q + 1 -> 0 < k < q -> nth (2 * q - k) (full_of x') czero = conj (nth k x' czero).
Proof.
  intros H Hk. unfold full_of. rewrite app_nth2 by lia.
  rewrite nth_removelast by (rewrite rev_length, map_length, removelast_length; lia).
  rewrite rev_nth by (rewrite map_length, removelast_length; lia). rewrite map_length, removelast_length.
  replace (length x' - 1 - S (2 * q - k - length x')) with k by lia.
  replace czero with (conj czero) at 1 by (apply cx_eq; simpl; ring). rewrite map_nth, nth_removelast by lia. reflexivity.
Qed.

Lemma full_hermitian x' q :
  length x' = q + 1 -> 0 < q -> im (nth 0 x' czero) = 0%R -> im (nth q x' czero) = 0%R ->
  im (nth 0 (full_of x') czero) = 0%R /\
  forall k, 0 < k < 2 * q -> nth (2 * q - k) (full_of x') czero = conj (nth k (full_of x') czero).
Proof.
  intros H Hq H0 Hn. split; [rewrite full_low by lia; exact H0|]. intros k Hk.
  destruct (Nat.lt_total k q) as [L|[L|L]].
  - rewrite (full_low x' k) by lia. apply full_high; lia.
  - subst k. replace (2 * q - q) with q by lia. rewrite full_low by lia. apply cx_eq; simpl; [reflexivity | lra].
  - rewrite <- (conj_conj (nth (2 * q - k) _ _)). f_equal.
    rewrite (full_low x' (2 * q - k)) by lia. rewrite <- (full_high x' q (2 * q - k) H) by lia. f_equal. lia.
Qed.

Lemma back_ok x q : length x = q + 1 -> 0 < q ->
  back_to_time_domain x (2 * q) = Ok (real_ends x, map (idft (2 * q) (fun k => nth k (full_of (real_ends x)) czero)) (seq 0 (2 * q))).
Proof.
  intros H Hq. unfold back_to_time_domain. destruct (Nat.eqb_spec (2 * length x) (2 * q + 2)); [|lia]. cbn [negb].
  destruct (Nat.eqb_spec (2 * q) 0); [lia|]. reflexivity.
Qed.

Lemma back_err x n : back_to_time_domain x n = Err ValueError <-> (2 * length x <> n + 2 \/ n = 0).
Proof.
  unfold back_to_time_domain. destruct (Nat.eqb_spec (2 * length x) (n + 2)); cbn [negb]; [|split; auto].
  destruct (Nat.eqb_spec n 0); split; auto; intros; [discriminate | lia].
Qed.

Lemma real_ends_ends x q : length x = q + 1 -> im (nth 0 (real_ends x) czero) = 0%R /\ im (nth q (real_ends x) czero) = 0%R.
Proof.
  intros H. rewrite !real_ends_nth by lia. replace (length x - 1) with q by lia.
  rewrite !Nat.eqb_refl, orb_true_r. simpl. split; reflexivity.
Qed.

Lemma back_real x q : length x = q + 1 -> 0 < q -> forall m,
  im (idft (2 * q) (fun k => nth k (full_of (real_ends x)) czero) m) = 0%R.
Proof.
  intros H Hq m. destruct (real_ends_ends x q H) as [E0 Eq].
  destruct (full_hermitian (real_ends x) q ltac:(rewrite real_ends_length; exact H) Hq E0 Eq) as [F0 FH].
  apply idft_real; [lia | exact F0 | exact FH].
Qed.

(** spectrum of the result *)
Lemma dft_idft n X k : k < n -> dft n (idft n X) k = X k.
Proof.
  intros Hk. assert (HN : (0 < INR n)%R) by (apply lt_0_INR; lia). unfold idft, dft.
  rewrite (csum_ext n _ (fun m => (cr (/ INR n) * csum n (fun j => X j * (cis (2 * PI * INR m * INR j / INR n) * cis (- (2 * PI * INR m * INR k / INR n)))))%cx)).
  2:{ intros m _. match goal with |- (?a * ?b * ?c)%cx = _ => replace (a * b * c)%cx with (a * (b * c))%cx by ring end. f_equal. rewrite <- csum_scale_r. apply csum_ext. intros j _.
      replace (2 * PI * INR j * INR m / INR n)%R with (2 * PI * INR m * INR j / INR n)%R by (field; lra).
      replace (2 * PI * INR k * INR m / INR n)%R with (2 * PI * INR m * INR k / INR n)%R by (field; lra). ring. }
  rewrite csum_scale, csum_swap.
  rewrite (csum_ext n _ (fun j => (X j * (if Nat.eqb j k then cr (INR n) else czero))%cx)).
  2:{ intros j Hj. rewrite csum_scale. f_equal. apply root_sum'; assumption. }
  rewrite (csum_single n _ k Hk).
  - rewrite Nat.eqb_refl. replace (cr (/ INR n) * (X k * cr (INR n)))%cx with (X k * (cr (/ INR n) * cr (INR n)))%cx by ring.
    rewrite <- cr_mul, Rinv_l by lra. change (cr 1) with cone. ring.
  - intros i Hi Hne. destruct (Nat.eqb_spec i k); [congruence | ring].
Qed.

(** round trip *)
Lemma dft_real_end n x k : (forall m, m < n -> im (x m) = 0%R) -> 0 < n -> k = 0 \/ 2 * k = n -> im (dft n x k) = 0%R.
Proof.
  intros Hx Hn [->|Hk].
  - unfold dft. apply im_csum. intros m Hm. simpl. rewrite (Hx m Hm).
    replace (- (2 * PI * 0 * INR m / INR n))%R with 0%R by (field; apply not_0_INR; lia). rewrite sin_0. ring.
  - pose proof (dft_conj_sym n x k Hx ltac:(lia)) as E. replace (n - k) with k in E by lia.
    apply (f_equal im) in E. simpl in E. lra.
Qed.

Definition half (q : nat) (x : nat -> cx) : list cx := map (dft (2 * q) x) (seq 0 (q + 1)).

Lemma back_half q x : 0 < q -> (forall m, m < 2 * q -> im (x m) = 0%R) ->
  back_to_time_domain (half q x) (2 * q) = Ok (half q x, map x (seq 0 (2 * q))).
Proof.
  intros Hq Hx. assert (HL : length (half q x) = q + 1) by (unfold half; rewrite map_length, seq_length; reflexivity).
  rewrite (back_ok _ q HL Hq).
  assert (ER : real_ends (half q x) = half q x).
  { apply nth_ext with (d := czero) (d' := czero); [apply real_ends_length|]. intros i Hi. rewrite real_ends_length, HL in Hi.
    rewrite real_ends_nth by lia. rewrite HL. destruct (Nat.eqb i 0 || Nat.eqb i (q + 1 - 1)) eqn:E; [|reflexivity].
    unfold half. rewrite nth_map_seq by lia. apply cx_eq; [reflexivity|]. simpl. symmetry. apply dft_real_end; [exact Hx | lia|]. lia. }
  rewrite ER. f_equal. f_equal. apply map_ext_in. intros m Hm. apply in_seq in Hm.
  transitivity (idft (2 * q) (dft (2 * q) x) m); [|apply idft_dft; lia].
  apply idft_ext. intros k Hk. destruct (Nat.le_gt_cases k q) as [L|L].
  - rewrite full_low by lia. unfold half. apply nth_map_seq. lia.
  - replace k with (2 * q - (2 * q - k)) at 1 by lia. rewrite (full_high _ q) by lia.
    unfold half. rewrite nth_map_seq by lia. rewrite <- dft_conj_sym by (try exact Hx; lia). f_equal. lia.
Qed.

(** ** Compression with real gains *)
Open Scope R_scope.

(** the mixture of the sensors *)
Definition mix (gains : list R) (yq : list (list R)) (m : nat) : R :=
  ChunkSpec.sumR (length yq) (fun s => nth s gains 0 * nth m (nth s yq []) 0).

Lemma csum_cr n f : csum n (fun i => cr (f i)) = cr (ChunkSpec.sumR n f).
Proof. induction n; simpl; [reflexivity|]. rewrite IHn, <- cr_add. reflexivity. Qed.
Lemma sumR_scale n a f : ChunkSpec.sumR n (fun i => a * f i) = a * ChunkSpec.sumR n f.
Proof. induction n; simpl; [ring|]. rewrite IHn. ring. Qed.

Lemma fused_gains q Ns h gains (wHat : list (list cx)) yq :
  (forall s i, (s < length yq)%nat -> (i < q + 1)%nat -> nth i (nth s wHat []) czero = cr (nth s gains 0)) ->
  fused_spectrum (2 * q) Ns h wHat yq = half q (fun m => cr (/ sqrt (INR Ns) * (mix gains yq m * nth m h 0))).
Proof.
  intros Hw. unfold fused_spectrum, half. replace (2 * q / 2)%nat with q by (rewrite Nat.mul_comm, Nat.div_mul; lia).
  apply map_ext_in. intros i Hi. apply in_seq in Hi.
  rewrite (csum_ext (length yq) _ (fun s => csum (2 * q) (fun m =>
     (cr (/ sqrt (INR Ns)) * (cr (nth s gains 0 * nth m (nth s yq []) 0 * nth m h 0) * cis (- (2 * PI * INR i * INR m / INR (2 * q)))))%cx))).
  2:{ intros s Hs. rewrite Hw by lia. rewrite conj_cr. unfold dft. rewrite <- csum_scale_r, <- csum_scale. apply csum_ext. intros m _.
      rewrite !cr_mul. ring. }
  rewrite csum_swap. unfold dft. apply csum_ext. intros m _. rewrite csum_scale, csum_scale_r, csum_cr.
  replace (ChunkSpec.sumR (length yq) (fun s => nth s gains 0 * nth m (nth s yq []) 0 * nth m h 0)) with (mix gains yq m * nth m h 0).
  - rewrite !cr_mul. ring.
  - unfold mix. rewrite Rmult_comm, <- sumR_scale. apply sumR_ext. intros s _. ring.
Qed.

Definition cur_block (q : nat) (h f : list R) (x : nat -> R) : list R :=
  map (fun j => nth j h 0 * nth j f 0 * x j) (seq 0 (2 * q)).

Lemma compress_current q Ns h f gains wHat yq :
  (0 < q)%nat -> (0 < Ns)%nat ->
  (forall s i, (s < length yq)%nat -> (i < q + 1)%nat -> nth i (nth s wHat []) czero = cr (nth s gains 0)) ->
  exists zh t, back_to_time_domain (fused_spectrum (2 * q) Ns h wHat yq) (2 * q) = Ok (zh, t) /\
    map (fun j => sqrt (INR Ns) * re (nth j t czero) * nth j f 0) (seq 0 (2 * q)) = cur_block q h f (mix gains yq).
Proof.
  intros Hq HNs Hw. rewrite (fused_gains q Ns h gains wHat yq Hw), back_half by (try exact Hq; reflexivity).
  eexists. eexists. split; [reflexivity|]. unfold cur_block. apply map_ext_in. intros j Hj. apply in_seq in Hj.
  rewrite nth_map_seq by lia. simpl re. assert (0 < sqrt (INR Ns)) by (apply sqrt_lt_R0, lt_0_INR, HNs).
  field. lra.
Qed.

Lemma norm_val_2 q h : (0 < q)%nat -> length h = (2 * q)%nat ->
  norm_val (2 * q) q h = Ok (map (fun j => nth (j + q) h 0 * nth (j + q) h 0 + nth j h 0 * nth j h 0) (seq 0 q)).
Proof.
  intros Hq Hh. unfold norm_val. replace (2 * q / q)%nat with 2%nat by (rewrite Nat.div_mul; lia).
  cbn [seq fold_left bind]. replace (Nat.min (0 * q + 2 * q) (2 * q + q)) with (2 * q)%nat by lia.
  replace (Nat.min (1 * q + 2 * q) (2 * q + q)) with (3 * q)%nat by lia.
  assert (Hf : forall n, n = (2 * q)%nat -> fit n (map (fun x => x * x) h) = Ok (map (fun x => x * x) h)).
  { intros n ->. unfold fit. rewrite map_length, Hh, Nat.eqb_refl. reflexivity. }
  rewrite !Hf by lia. cbn [bind]. f_equal.
  apply nth_ext with (d := 0) (d' := 0).
  - rewrite firstn_length, skipn_length, !map_length, !seq_length. lia.
  - intros j Hj. rewrite firstn_length, skipn_length, map_length, seq_length in Hj.
    assert (Hjq : (j < q)%nat) by lia.
    rewrite (nth_map_seq _ 0 q j Hjq).
    assert (HF : forall l : list R, (q + j < length l)%nat -> nth j (firstn q (skipn q l)) 0 = nth (q + j) l 0).
    { intros l Hl. assert (E : nth_error (firstn q (skipn q l)) j = nth_error l (q + j)) by (rewrite nth_error_firstn by exact Hjq; apply nth_error_skipn).
      rewrite (nth_error_nth' l 0 Hl) in E. apply (nth_error_nth _ _ _ E). }
    rewrite HF by (rewrite map_length, seq_length; lia).
    assert (HS : forall i, nth i (map (fun x => x * x) h) 0 = nth i h 0 * nth i h 0).
    { intros i. pose proof (map_nth (fun x => x * x) h 0 i) as E. cbv beta in E. rewrite Rmult_0_l in E. exact E. }
    rewrite nth_map_seq by lia. rewrite nth_map_seq by lia.
    replace (nth (q + j) (repeat 0 (2 * q + q)) 0) with 0 by (symmetry; apply nth_repeat).
    destruct (Nat.leb_spec (0 * q) (q + j)), (Nat.ltb_spec (q + j) (2 * q)), (Nat.leb_spec (1 * q) (q + j)), (Nat.ltb_spec (q + j) (3 * q)); try lia.
    cbn [andb]. rewrite !HS. replace (q + j - 0 * q)%nat with (j + q)%nat by lia. replace (q + j - 1 * q)%nat with j by lia. ring.
Qed.

(** three or more overlaps: the normalisation cannot be computed *)
Lemma norm_val_3 N Ns h : (0 < Ns)%nat -> (3 <= N / Ns)%nat -> length h = N -> norm_val N Ns h = Err ValueError.
Proof.
  intros HNs H3 Hh. unfold norm_val.
  assert (HN : (3 * Ns <= N)%nat) by (apply (Nat.le_trans _ (N / Ns * Ns)); [nia | rewrite Nat.mul_comm; apply Nat.mul_div_le; lia]).
  destruct (N / Ns)%nat as [|[|[|n]]]; try lia. cbn [seq fold_left bind].
  replace (Nat.min (0 * Ns + N) (N + Ns)) with N by lia. replace (Nat.min (1 * Ns + N) (N + Ns)) with (N + Ns)%nat by lia.
  replace (Nat.min (2 * Ns + N) (N + Ns)) with (N + Ns)%nat by lia.
  assert (Hf : forall n, n = N -> fit n (map (fun x => x * x) h) = Ok (map (fun x => x * x) h)).
  { intros m ->. unfold fit. rewrite map_length, Hh, Nat.eqb_refl. reflexivity. }
  rewrite (Hf (N - 0 * Ns)%nat) by lia. cbn [bind]. rewrite (Hf (N + Ns - 1 * Ns)%nat) by lia. cbn [bind].
  assert (E : fit (N + Ns - 2 * Ns) (map (fun x => x * x) h) = Err ValueError).
  { unfold fit. rewrite map_length, Hh. destruct (Nat.eqb_spec N (N + Ns - 2 * Ns)); [lia|]. destruct (Nat.eqb_spec N 1); [lia | reflexivity]. }
  rewrite E. cbn [bind].
  assert (G : forall (l : list nat) F, (forall i, F (Err ValueError) i = Err ValueError) -> fold_left F l (Err ValueError : res (list R)) = Err ValueError).
  { intros l F HF. induction l as [|i l IH]; [reflexivity|]. simpl. rewrite HF. exact IH. }
  rewrite G; [reflexivity | reflexivity].
Qed.

Lemma all_zero_true z : all_zero z = true <-> (forall v, In v z -> v = 0).
Proof.
  unfold all_zero. rewrite forallb_forall. split; intros H v Hv; specialize (H v Hv); destruct (Req_EM_T v 0); congruence.
Qed.

Lemma compress_first q h f gains wHat yq prev :
  (0 < q)%nat ->
  (forall s i, (s < length yq)%nat -> (i < q + 1)%nat -> nth i (nth s wHat []) czero = cr (nth s gains 0)) ->
  all_zero prev = true ->
  exists zh, compress_whole_chunk (2 * q) q h f wHat yq prev = Ok (zh, cur_block q h f (mix gains yq)).
Proof.
  intros Hq Hw Hp. destruct (compress_current q q h f gains wHat yq Hq Hq Hw) as [zh [t [E1 E2]]].
  exists zh. unfold compress_whole_chunk. rewrite E1. cbn [bind]. rewrite Hp, E2. reflexivity.
Qed.

Lemma compress_next q h f gains wHat yq prev :
  (0 < q)%nat -> length h = (2 * q)%nat -> length prev = (2 * q)%nat ->
  (forall s i, (s < length yq)%nat -> (i < q + 1)%nat -> nth i (nth s wHat []) czero = cr (nth s gains 0)) ->
  all_zero prev = false ->
  exists zh z, compress_whole_chunk (2 * q) q h f wHat yq prev = Ok (zh, z) /\ length z = (2 * q)%nat /\
    (forall j, (j < q)%nat -> nth j z 0 = (nth (q + j) prev 0 + nth j h 0 * nth j f 0 * mix gains yq j) /
                                           (nth (j + q) h 0 * nth (j + q) h 0 + nth j h 0 * nth j h 0)) /\
    (forall j, (q <= j < 2 * q)%nat -> nth j z 0 = nth j h 0 * nth j f 0 * mix gains yq j).
Proof.
  intros Hq Hh Hpl Hw Hp. destruct (compress_current q q h f gains wHat yq Hq Hq Hw) as [zh [t [E1 E2]]].
  exists zh. unfold compress_whole_chunk. rewrite E1. cbn [bind]. rewrite Hp, E2.
  replace (2 * q - q)%nat with q by lia.
  assert (EP : py_from (- Z.of_nat q) prev = skipn q prev).
  { unfold py_from. f_equal. unfold py_bound. destruct (Z.ltb_spec (- Z.of_nat q) 0); lia. }
  rewrite EP. unfold fit. rewrite skipn_length, Hpl. replace (2 * q - q)%nat with q by lia. rewrite Nat.eqb_refl. cbn [bind].
  rewrite norm_val_2 by assumption. cbn [bind]. eexists. split; [reflexivity|].
  split; [rewrite map_length, seq_length; reflexivity|].
  split; intros j Hj; rewrite (nth_map_seq _ 0 (2 * q) j) by lia.
  - destruct (Nat.ltb_spec j q); [|lia]. rewrite !nth_map_seq by lia. destruct (Nat.ltb_spec j q); [|lia].
    unfold cur_block. rewrite nth_map_seq by lia.
    assert (HE : nth j (skipn q prev) 0 = nth (q + j) prev 0).
    { assert (E : nth_error (skipn q prev) j = nth_error prev (q + j)) by apply nth_error_skipn.
      rewrite (nth_error_nth' prev 0) in E by lia. apply (nth_error_nth _ _ _ E). }
    rewrite HE. reflexivity.
  - destruct (Nat.ltb_spec j q); [lia|]. rewrite nth_map_seq by lia. destruct (Nat.ltb_spec j q); [lia|].
    unfold cur_block. rewrite nth_map_seq by lia. ring.
Qed.
