(** Theorems about the initial correlation matrices (C85). *)
From Verif Require Import Base BaseFacts Cx CxFacts Filt FiltSpec Scm ScmSpec ScmProps Prep PrepProps InitCov.
From Coq Require Import Reals Lra.
Local Open Scope R_scope.

(** the matrices of a node *)
Definition matrices (x : inits) : list (nat * tens) := [i_tilde x; i_centr x; i_ssbc x; i_local x; i_z x].

Lemma initial_parts p ti ms nb u v k x : initial p ti ms nb u v k = Ok x ->
  exists r, full_slice p u v k = Ok r /\ (k < length ms)%nat /\ let t := list_sum ms in let m := nth k ms 0%nat in let rc := (if ti then 1 else length nb)%nat in
  x = mkI (Nat.min (m + rc) t, r) (t, r) (Nat.min (m + rc) t, r) (Nat.min m t, r) (Nat.min (rc + 1) t, r).
Proof.
  unfold initial. destruct (full_slice p u v k) as [r|]; [|discriminate]. cbn [bind]. unfold get. destruct (nth_error ms k) as [m|] eqn:E; [|discriminate]. cbn [bind]. intros H. injection H as <-.
  exists r. split; [reflexivity|]. split; [apply nth_error_Some; congruence|]. cbn zeta. rewrite (nth_error_nth ms k 0%nat E). reflexivity.
Qed.
Lemma matrices_same p ti ms nb u v k x d r : initial p ti ms nb u v k = Ok x -> In (d, r) (matrices x) -> full_slice p u v k = Ok r.
Proof. intros H I. destruct (initial_parts _ _ _ _ _ _ _ _ H) as (r' & E & _ & ->). cbn in I. destruct I as [I|[I|[I|[I|[I|[]]]]]]; injection I as _ <-; exact E. Qed.

(** ** Values *)
(** Type 'eye': at every node and frequency the matrices are the identity times the scaling
    asked for; they are Hermitian, and positive semi-definite unless the scaling is
    negative. *)
Theorem C85_identity p ti ms nb u v k x d r : ip_type p = Eye -> initial p ti ms nb u v k = Ok x -> In (d, r) (matrices x) ->
  (forall f i j, r f i j = if Nat.eqb i j then cr (ip_eye p) else czero) /\ (forall n, hermitian n r /\ (0 <= ip_eye p -> psd n r)).
Proof.
  intros Ht H I. pose proof (matrices_same _ _ _ _ _ _ _ _ _ _ H I) as E. unfold full_slice, init_covmats in E. rewrite Ht in E. injection E as <-.
  split; [reflexivity|]. intros n. destruct (ex_id_ok n) as [_ P]. split.
  - intros f i j _ _. unfold eye. rewrite Nat.eqb_sym. destruct (Nat.eqb i j); apply cx_eq; cbn; ring.
  - intros Hs f y. specialize (P f y). assert (Q : quad n (eye (ip_eye p)) f y = (cr (ip_eye p) * quad n ex_id f y)%cx).
    { unfold quad. rewrite <- csum_scale. apply csum_ext. intros i _. rewrite <- csum_scale. apply csum_ext. intros j _. unfold eye, ex_id. destruct (Nat.eqb i j); apply cx_eq; cbn; ring. }
    rewrite Q. destruct P as [P1 P2]. set (q := quad n ex_id f y) in *. cbn. rewrite P2. split; [nra|ring].
Qed.
(** The two random types (the first of them is the default) give Hermitian matrices exactly
    for draws that are themselves symmetric, in particular one half exactly for the
    imaginary parts of the diagonal. *)
Theorem C85_random_hermitian p u v r n : ip_type p = FullyRandom \/ ip_type p = EyeAndRandom -> ip_rand p <> 0 -> init_covmats p u v = Ok r ->
  (hermitian n r <-> forall f i j, (i < n)%nat -> (j < n)%nat -> u f i j = u f j i /\ v f i j + v f j i = 1).
Proof.
  intros Ht Hs E.
  assert (G : forall f i j, r f i j = (eye (match ip_type p with EyeAndRandom => ip_eye p | _ => 0 end) f i j + cr (ip_rand p) * rand_array u v f i j)%cx).
  { intros f i j. unfold init_covmats in E. destruct Ht as [Ht|Ht]; rewrite Ht in *; injection E as <-; [|reflexivity]. unfold eye. destruct (Nat.eqb i j); apply cx_eq; cbn; ring. }
  split.
  - intros H f i j Hi Hj. specialize (H f i j Hi Hj). rewrite !G in H. unfold eye in H. rewrite (Nat.eqb_sym j i) in H. set (s := match ip_type p with EyeAndRandom => ip_eye p | _ => 0 end) in H.
    assert (A : re (if Nat.eqb i j then cr s else czero) + ip_rand p * (2 * u f j i - 1) = re (if Nat.eqb i j then cr s else czero) + ip_rand p * (2 * u f i j - 1)) by (apply (f_equal re) in H; destruct (Nat.eqb i j); cbn in H |- *; lra).
    assert (B : ip_rand p * (2 * v f j i - 1) = - (ip_rand p * (2 * v f i j - 1))) by (apply (f_equal im) in H; destruct (Nat.eqb i j); cbn in H |- *; lra).
    split; [apply (Rmult_eq_reg_l (ip_rand p)); [lra|exact Hs]|apply (Rmult_eq_reg_l (ip_rand p)); [lra|exact Hs]].
  - intros H f i j Hi Hj. destruct (H f i j Hi Hj) as [A B]. rewrite !G. unfold eye, rand_array. rewrite (Nat.eqb_sym j i). replace (v f j i) with (1 - v f i j) by lra. rewrite <- A. destruct (Nat.eqb i j); apply cx_eq; cbn; ring.
Qed.
(** Random entries are within the scaling asked for (plus the identity). *)
Theorem C85_random_range p u v r f i j : ip_type p = FullyRandom \/ ip_type p = EyeAndRandom -> 0 <= ip_rand p -> (forall f i j, 0 <= u f i j <= 1 /\ 0 <= v f i j <= 1) -> init_covmats p u v = Ok r ->
  let e := (r f i j - eye (match ip_type p with EyeAndRandom => ip_eye p | _ => 0 end) f i j)%cx in Rabs (re e) <= ip_rand p /\ Rabs (im e) <= ip_rand p.
Proof.
  intros Ht Hs Hu E. destruct (Hu f i j) as [U V].
  assert (G : (r f i j - eye (match ip_type p with EyeAndRandom => ip_eye p | _ => 0 end) f i j)%cx = (cr (ip_rand p) * rand_array u v f i j)%cx).
  { unfold init_covmats in E. destruct Ht as [Ht|Ht]; rewrite Ht in *; injection E as <-; unfold eye; destruct (Nat.eqb i j); apply cx_eq; cbn; ring. }
  cbn zeta. rewrite G. cbn. split; apply Rabs_le; nra.
Qed.
(** The options: the same matrices for all nodes, for all frequencies. *)
Theorem C85_same_everywhere p u v r k f i j : full_slice p u v k = Ok r ->
  (ip_same_nodes p = true -> forall k', full_slice p u v k' = Ok r) /\ (ip_same_freqs p = true -> r f i j = r 0%nat i j).
Proof.
  intros E. split.
  - intros S k'. rewrite <- E. unfold full_slice. rewrite S. reflexivity.
  - intros S. unfold full_slice, init_covmats in E. rewrite S in E. destruct (ip_type p); try discriminate; injection E as <-; reflexivity.
Qed.
Theorem C85_unknown_type p ti ms nb u v k : ip_type p = OtherInit -> initial p ti ms nb u v k = Err UnboundLocalError.
Proof. intros H. unfold initial, full_slice, init_covmats. rewrite H. reflexivity. Qed.

(** ** Sizes *)
Lemma sum_ge : forall ms k, (k < length ms)%nat -> (forall m, In m ms -> (1 <= m)%nat) -> (nth k ms 0 + (length ms - 1) <= list_sum ms)%nat.
Proof.
  induction ms as [|m ms IH]; intros k Hk H; cbn in Hk; [lia|]. cbn [list_sum fold_right length]. fold (list_sum ms).
  assert (L : (length ms <= list_sum ms)%nat). { clear -H. induction ms as [|a ms IH]; [cbn; lia|]. cbn [length list_sum fold_right]. fold (list_sum ms). assert (1 <= a)%nat by (apply H; cbn; auto). assert (length ms <= list_sum ms)%nat by (apply IH; intros b [<-|I]; apply H; cbn; auto). lia. }
  destruct k as [|k]; cbn [nth]; [lia|]. assert (1 <= m)%nat by (apply H; left; reflexivity). specialize (IH k ltac:(lia) (fun a I => H a (or_intror I))). lia.
Qed.
(** Every matrix is as large as the signals it is for: one row per local sensor and per
    received signal, per sensor of the network, per local sensor, per fused signal. *)
Theorem C85_sizes p ti ms nb u v k x : initial p ti ms nb u v k = Ok x -> (forall m, In m ms -> (1 <= m)%nat) -> (2 <= length ms)%nat ->
  NoDup nb -> (forall q, In q nb -> (q < length ms)%nat /\ q <> k) ->
  let rc := (if ti then 1 else length nb)%nat in
  fst (i_tilde x) = (nth k ms 0 + rc)%nat /\ fst (i_ssbc x) = (nth k ms 0 + rc)%nat /\ fst (i_centr x) = list_sum ms /\ fst (i_local x) = nth k ms 0%nat /\ fst (i_z x) = (rc + 1)%nat.
Proof.
  intros H Hm H2 Nd Hn. destruct (initial_parts _ _ _ _ _ _ _ _ H) as (r & _ & Hk & ->). cbn zeta. cbn [i_tilde i_ssbc i_centr i_local i_z fst].
  pose proof (sum_ge ms k Hk Hm) as G. assert (N : (length nb <= length ms - 1)%nat).
  { assert (length (k :: nb) <= length (seq 0 (length ms)))%nat; [|rewrite seq_length in *; cbn in *; lia]. apply NoDup_incl_length; [constructor; [intros I; apply (proj2 (Hn k I)); reflexivity|exact Nd]|]. intros q [<-|I]; apply in_seq; [lia|]. destruct (Hn q I). lia. }
  assert (1 <= nth k ms 0)%nat by (apply Hm, nth_In, Hk). destruct ti; repeat split; lia.
Qed.
(** With a single node, topology-independent processing gets matrices that are too small. *)
Theorem C85_single_node_refuted p m nb u v x : initial p true [m] nb u v 0 = Ok x -> fst (i_tilde x) = m.
Proof. intros H. destruct (initial_parts _ _ _ _ _ _ _ _ H) as (r & _ & _ & ->). cbn. lia. Qed.

(** ** How long they matter *)
(** Started with 'eye', the matrices of a run are Hermitian and positive semi-definite at
    all times. *)
Theorem C85_valid_runs p ti ms nb u v k x d r beta valid (W : Type) (solve : nat -> tens -> tens -> W) q us n0 n wh e0 dim :
  ip_type p = Eye -> 0 <= ip_eye p -> initial p ti ms nb u v k = Ok x -> In (d, r) (matrices x) ->
  0 <= beta <= 1 -> estimator wh n0 = Some e0 -> e_ryy e0 = r -> e_rnn e0 = r -> filt_run outer (avg beta) valid solve q us n0 = Ok n ->
  exists e, estimator wh n = Some e /\ hermitian dim (e_ryy e) /\ psd dim (e_ryy e) /\ hermitian dim (e_rnn e) /\ psd dim (e_rnn e).
Proof.
  intros Ht Hs H I Hb He E1 E2 Hr. destruct (C85_identity _ _ _ _ _ _ _ _ _ _ Ht H I) as [_ G]. destruct (G dim) as [A B]. specialize (B Hs).
  apply (C27_hermitian_psd beta valid W solve q us n0 n wh e0 dim Hb Hr He); rewrite ?E1, ?E2; assumption.
Qed.
(** the weights of the frames do not depend on the start *)
Lemma weighted_diff beta r0 r0' ys f i j : (weighted beta r0 ys f i j - weighted beta r0' ys f i j = cr (beta ^ length ys) * (r0 f i j - r0' f i j))%cx.
Proof. unfold weighted. ring. Qed.
Lemma weighted_conj beta r0 ys f i j : (weighted beta r0 ys f i j - Cx.conj (weighted beta r0 ys f j i) = cr (beta ^ length ys) * (r0 f i j - Cx.conj (r0 f j i)))%cx.
Proof.
  unfold weighted. set (S1 := csum _ _). set (S2 := csum _ _). assert (E : Cx.conj S2 = S1).
  { unfold S1, S2. rewrite csum_conj. apply csum_ext. intros t _. unfold corr. apply cx_eq; cbn; ring. }
  rewrite <- E. apply cx_eq; cbn; ring.
Qed.
(** Two runs over the same frames whose matrices started differently: after [m] frames of
    a kind the difference has shrunk by exactly the [m]-th power of the forgetting factor. *)
Theorem C85_start_forgotten beta valid (W : Type) (solve : nat -> tens -> tens -> W) p us n0 n n0' n' wh e0 e0' :
  f_use1st p = false -> filt_run outer (avg beta) valid solve p us n0 = Ok n -> estimator wh n0 = Some e0 ->
  filt_run outer (avg beta) valid solve p us n0' = Ok n' -> estimator wh n0' = Some e0' ->
  exists e e', estimator wh n = Some e /\ estimator wh n' = Some e' /\ forall f i j,
    (e_ryy e f i j - e_ryy e' f i j = cr (beta ^ length (pick wh true us)) * (e_ryy e0 f i j - e_ryy e0' f i j))%cx /\
    (e_rnn e f i j - e_rnn e' f i j = cr (beta ^ length (pick wh false us)) * (e_rnn e0 f i j - e_rnn e0' f i j))%cx.
Proof.
  intros Hf R1 E1 R2 E2. destruct (C61_online_weights _ _ _ _ _ _ _ _ _ _ R1 E1 Hf) as (e & A & V). destruct (C61_online_weights _ _ _ _ _ _ _ _ _ _ R2 E2 Hf) as (e' & A' & V').
  exists e, e'. split; [exact A|]. split; [exact A'|]. intros f i j. destruct (V f i j) as [-> ->], (V' f i j) as [-> ->]. split; apply weighted_diff.
Qed.
(** With the forgetting factor computed from [t50p], at most half of the difference is left
    after frames of that kind lasting [t50p] seconds. *)
Theorem C85_half_life t50p fs ns valid (W : Type) (solve : nat -> tens -> tens -> W) p us n0 n n0' n' wh e0 e0' :
  0 < t50p -> 0 < fs -> 0 < ns -> let beta := node_beta None t50p fs ns in t50p <= INR (length (pick wh true us)) * ns / fs ->
  f_use1st p = false -> filt_run outer (avg beta) valid solve p us n0 = Ok n -> estimator wh n0 = Some e0 ->
  filt_run outer (avg beta) valid solve p us n0' = Ok n' -> estimator wh n0' = Some e0' ->
  exists e e', estimator wh n = Some e /\ estimator wh n' = Some e' /\ forall f i j,
    Rabs (re (e_ryy e f i j - e_ryy e' f i j)%cx) <= 1 / 2 * Rabs (re (e_ryy e0 f i j - e_ryy e0' f i j)%cx) /\
    Rabs (im (e_ryy e f i j - e_ryy e' f i j)%cx) <= 1 / 2 * Rabs (im (e_ryy e0 f i j - e_ryy e0' f i j)%cx).
Proof.
  intros Ht Hs Hn beta Hm Hf R1 E1 R2 E2. destruct (C83_forgetting_factor t50p fs ns Ht Hs Hn) as [B1 B2]. fold beta in B1, B2. apply B2 in Hm.
  destruct (C85_start_forgotten _ _ _ _ _ _ _ _ _ _ _ _ _ Hf R1 E1 R2 E2) as (e & e' & A & A' & V). exists e, e'. split; [exact A|]. split; [exact A'|]. intros f i j. destruct (V f i j) as [-> _].
  set (b := beta ^ length (pick wh true us)) in *. assert (0 <= b) by (apply pow_le; lra). set (z := (e_ryy e0 f i j - e_ryy e0' f i j)%cx).
  assert (Re : re (cr b * z)%cx = b * re z) by (cbn; ring). assert (Im : im (cr b * z)%cx = b * im z) by (cbn; ring). rewrite Re, Im, !Rabs_mult, (Rabs_right b) by lra.
  split; apply Rmult_le_compat_r; try apply Rabs_pos; exact Hm.
Qed.
(** A matrix that is not Hermitian at first never becomes so: what is missing shrinks by the
    forgetting factor with every frame. *)
Theorem C85_hermitian_iff_at_start beta valid (W : Type) (solve : nat -> tens -> tens -> W) p us n0 n wh e0 dim :
  0 < beta -> f_use1st p = false -> filt_run outer (avg beta) valid solve p us n0 = Ok n -> estimator wh n0 = Some e0 ->
  exists e, estimator wh n = Some e /\ (hermitian dim (e_ryy e) <-> hermitian dim (e_ryy e0)) /\ (hermitian dim (e_rnn e) <-> hermitian dim (e_rnn e0)).
Proof.
  intros Hb Hf R E. destruct (C61_online_weights _ _ _ _ _ _ _ _ _ _ R E Hf) as (e & A & V). exists e. split; [exact A|].
  assert (Z : forall a z, a <> 0 -> (cr a * z)%cx = czero -> z = czero).
  { intros a z Ha Hz. apply cx_eq; [apply (f_equal re) in Hz|apply (f_equal im) in Hz]; cbn in *; apply (Rmult_eq_reg_l a); try exact Ha; lra. }
  assert (S : forall a b : cx, (a - b)%cx = czero <-> a = b).
  { intros a b. split; [|intros ->; ring]. intros H. apply cx_eq; [apply (f_equal re) in H|apply (f_equal im) in H]; cbn in H; lra. }
  assert (G : forall r0 ys r, (forall f i j, r f i j = weighted beta r0 ys f i j) -> (hermitian dim r <-> hermitian dim r0)).
  { intros r0 ys r Hr. assert (P : beta ^ length ys <> 0) by (apply pow_nonzero; lra).
    split; intros H f i j Hi Hj; apply S.
    - apply (Z (beta ^ length ys)); [exact P|]. rewrite <- weighted_conj. apply S. rewrite <- !Hr. apply H; assumption.
    - rewrite !Hr, weighted_conj. specialize (H f i j Hi Hj). apply S in H. rewrite H. apply cx_eq; cbn; ring. }
  split; [apply (G _ (pick wh true us)); intros f i j; apply V|apply (G _ (pick wh false us)); intros f i j; apply V].
Qed.
(** default settings, draws of one quarter: not Hermitian *)
Lemma quarter_draws : exists r, init_covmats (mkIP FullyRandom 1 1 true true) (fun _ _ _ => / 4) (fun _ _ _ => / 4) = Ok r /\ ~ hermitian 1 r.
Proof.
  eexists. split; [reflexivity|]. intros H. assert (N : ip_rand (mkIP FullyRandom 1 1 true true) <> 0) by (cbn; lra).
  pose proof (proj1 (C85_random_hermitian (mkIP FullyRandom 1 1 true true) _ _ _ 1%nat (or_introl eq_refl) N eq_refl) H 0%nat 0%nat 0%nat Nat.lt_0_1 Nat.lt_0_1) as [_ G]. cbv beta in G. lra.
Qed.
(** So, with the default settings, matrices are in general Hermitian at no time. *)
Theorem C85_default_refuted : exists p u v r, ip_type p = FullyRandom /\ (forall f i j : nat, 0 <= u f i j <= 1 /\ 0 <= v f i j <= 1) /\ init_covmats p u v = Ok r /\ ~ hermitian 1 r /\
  forall beta valid (W : Type) (solve : nat -> tens -> tens -> W) q us n0 n e0, 0 < beta -> f_use1st q = false -> filt_run outer (avg beta) valid solve q us n0 = Ok n -> estimator Danse n0 = Some e0 -> e_ryy e0 = r ->
    exists e, estimator Danse n = Some e /\ ~ hermitian 1 (e_ryy e).
Proof.
  destruct quarter_draws as (r & E & N). exists (mkIP FullyRandom 1 1 true true), (fun _ _ _ => / 4), (fun _ _ _ => / 4), r. split; [reflexivity|]. split; [intros; lra|]. split; [exact E|]. split; [exact N|].
  intros beta valid W solve q us n0 n e0 Hb Hf R E0 Er. destruct (C85_hermitian_iff_at_start beta valid W solve q us n0 n Danse e0 1 Hb Hf R E0) as (e & A & I & _). exists e. split; [exact A|]. rewrite I, Er. exact N.
Qed.
(** If the first frame serves as basis, it replaces the initial matrices altogether. *)
Theorem C85_first_frame beta valid (W : Type) (solve : nat -> tens -> tens -> W) p us n0 n n0' n' wh e0 e0' :
  f_use1st p = true -> wh <> Centr -> fresh n0 -> fresh n0' -> filt_run outer (avg beta) valid solve p us n0 = Ok n -> estimator wh n0 = Some e0 ->
  filt_run outer (avg beta) valid solve p us n0' = Ok n' -> estimator wh n0' = Some e0' ->
  exists e e', estimator wh n = Some e /\ estimator wh n' = Some e' /\
    (pick wh true us <> [] -> forall f i j, e_ryy e f i j = e_ryy e' f i j) /\ (pick wh false us <> [] -> forall f i j, e_rnn e f i j = e_rnn e' f i j).
Proof.
  intros Hf Hw F1 F2 R1 E1 R2 E2. destruct (C61_first_frame_as_basis _ _ _ _ _ _ _ _ _ _ F1 R1 E1 Hf Hw) as (e & A & V). destruct (C61_first_frame_as_basis _ _ _ _ _ _ _ _ _ _ F2 R2 E2 Hf Hw) as (e' & A' & V').
  exists e, e'. split; [exact A|]. split; [exact A'|]. split; intros N f i j; destruct (V f i j) as [X Y], (V' f i j) as [X' Y'].
  - rewrite X, X'. destruct (pick wh true us); [congruence|reflexivity].
  - rewrite Y, Y'. destruct (pick wh false us); [congruence|reflexivity].
Qed.

Example C85_example_eye : exists x, initial (mkIP Eye 1 2 true true) false [2; 1; 3]%nat [0; 1]%nat (fun _ _ _ _ => 0) (fun _ _ _ _ => 0) 2 = Ok x /\
  fst (i_tilde x) = 5%nat /\ fst (i_centr x) = 6%nat /\ fst (i_z x) = 3%nat /\ snd (i_tilde x) 7%nat 4%nat 4%nat = cr 2.
Proof. eexists. split; [reflexivity|]. repeat split. Qed.
Example C85_example_run : exists n,
  filt_run outer (avg (1 / 2)) (fun _ _ _ => true) (fun _ _ _ => tt) (mkF false 0 false false)
    [mkU 0 (2%nat, fun f c => mkC 1 (INR c)) (2%nat, fun f c => mkC 1 (INR c)) (2%nat, fun f c => mkC 1 (INR c)) (2%nat, fun f c => mkC 1 (INR c)) true true false false false]
    (fnode_init (est_init (eye 2) tt 3 2) None None None) = Ok n.
Proof. eexists. reflexivity. Qed.

Print Assumptions C85_identity.
Print Assumptions C85_random_hermitian.
Print Assumptions C85_random_range.
Print Assumptions C85_same_everywhere.
Print Assumptions C85_unknown_type.
Print Assumptions C85_sizes.
Print Assumptions C85_single_node_refuted.
Print Assumptions C85_valid_runs.
Print Assumptions C85_start_forgotten.
Print Assumptions C85_half_life.
Print Assumptions C85_hermitian_iff_at_start.
Print Assumptions C85_default_refuted.
Print Assumptions C85_first_frame.
