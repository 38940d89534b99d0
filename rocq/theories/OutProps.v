(** Property C66: the output signals of a complete run.  Vocabulary: OutSpec.v; the run
    itself is modelled in Online.v. *)
From Verif Require Import Base BaseFacts Sched SchedSpec InstSpec InstFacts SchedProps Buffers Chunk ChunkSpec ChunkFacts Cx CxFacts Windows Online OnlineSpec OnlineProps OutSpec OutFacts OutFacts2 OutFacts3 OutFacts4.
From Coq Require Import Reals Lra.
Local Open Scope R_scope.

Lemma init_facts c nsens ref T k :
  (k < length (o_nodes c))%nat -> length nsens = length (o_nodes c) ->
  let st := online_init 0 c nsens ref T in
  nth k (os_d st) [] = repeat 0 T /\ nth k (os_dl st) [] = repeat 0 T /\ nth k (b_i (os_b st)) 0%nat = 0%nat.
Proof.
  intros Hk _. cbn. unfold init_state. cbn. assert (A : forall B (v d : B), nth k (map (fun _ : snode => v) (o_nodes c)) d = v).
  { intros B v d. rewrite (nth_indep _ d v) by (rewrite map_length; exact Hk). exact (map_nth (fun _ => v) (o_nodes c) (mkNode 1 [] []) k). }
  rewrite !A. auto.
Qed.

(** ** C66 *)
(** Local estimates, any filters: the output of node [k] is the sum, over the updates of
    the node, of the frames obtained by filtering the frames of its own sensors with the
    coefficients of that update ([m] is the position of the update in the run), weighted
    by the synthesis window. *)
Theorem C66_local_output c y q T k sched nsens ref r :
  wola_setting c q -> (k < length (o_nodes c))%nat -> length nsens = length (o_nodes c) ->
  Forall (fun col => length col = T) (nth k y []) ->
  (forall t, In (t, (k, Up)) (flat_events sched) -> (0 <= frame_end c k t <= Z.of_nat T)%Z) ->
  online_run c y sched (online_init 0 c nsens ref T) = Ok r ->
  exists x : nat -> nat -> R,
    (forall m t, nth_error (flat_events sched) m = Some (t, (k, Up)) ->
       filtered q (o_h c) (o_loc c k (length (updates_of k (firstn (S m) (flat_events sched))))) (length (nth k y []))
         (frame_of y k (2 * q) (frame_end c k t)) (x m)) /\
    forall n, at2 (os_dl r) k n =
      sum_updates k (flat_events sched) (fun m t => placed (2 * q) (frame_end c k t) (fun j => nth j (o_f c) 0 * x m j) n).
Proof.
  intros (Hq & HN & HNs & Hf & Hw) Hk Hn Hy HE H.
  destruct (init_facts c nsens ref T k Hk Hn) as (D & L & I).
  destruct (run_out c y q T k (online_init 0 c nsens ref T) os_dl
    (fun t s i x => filtered q (o_h c) (o_loc c k i) (length (nth k y [])) (frame_of y k (2 * q) (frame_end c k t)) x)) with (evs := flat_events sched) (r := r)
    as (_ & _ & x & Hx & Sx).
  - intros t st st' Ht [G1 G2] Hup. destruct (update_adds c y q T k Hq HN HNs Hf Hw Hy t st st' Ht G1 G2 Hup) as (U1 & U2 & U3 & (x & F & A) & _).
    split; [split; assumption|]. split; [exact U1|]. exists x. split; [exact F|exact A].
  - intros te st st' U He. destruct (other_event c y k te st st' U He) as (O1 & O2 & O3). auto.
  - split; [rewrite D|rewrite L]; apply repeat_length.
  - exact I.
  - apply Forall_forall. intros [t [k' ty]] Hin U. apply HE. unfold is_update in U. cbn in U |- *. destruct ty; try discriminate. apply Nat.eqb_eq in U. now subst.
  - exact H.
  - exists x. split.
    + intros m t Hm. destruct (foldM (online_event c y) (firstn (S m) (flat_events sched)) (online_init 0 c nsens ref T)) as [s|e] eqn:E.
      * apply (Hx m _ s Hm); [unfold is_update; cbn; apply Nat.eqb_refl|exact E].
      * exfalso. unfold online_run in H. rewrite <- (firstn_skipn (S m) (flat_events sched)), BufFacts.foldM_app, E in H. discriminate.
    + intros n. rewrite Sx. unfold at2 at 1. rewrite L, nth_repeat. lra.
Qed.

(** DANSE estimates without compensation of sampling-rate offsets: the same with the
    frames received from the neighbours by the time of the update (in [z], state [s]
    after the update) as further channels. *)
Theorem C66_danse_output c y q T k sched nsens ref r :
  wola_setting c q -> o_comp c = false -> (k < length (o_nodes c))%nat -> length nsens = length (o_nodes c) ->
  Forall (fun col => length col = T) (nth k y []) ->
  (forall t, In (t, (k, Up)) (flat_events sched) -> (0 <= frame_end c k t <= Z.of_nat T)%Z) ->
  online_run c y sched (online_init 0 c nsens ref T) = Ok r ->
  exists x : nat -> nat -> R,
    (forall m t, nth_error (flat_events sched) m = Some (t, (k, Up)) ->
       exists s, reached c y sched (online_init 0 c nsens ref T) (S m) = Ok s /\
       let z := nth k (b_z (os_b s)) [] in
       filtered q (o_h c) (o_int c k (length (updates_of k (firstn (S m) (flat_events sched))))) (length (nth k y []) + length z)
         (frame_with y z k (2 * q) (frame_end c k t)) (x m)) /\
    forall n, at2 (os_d r) k n =
      sum_updates k (flat_events sched) (fun m t => placed (2 * q) (frame_end c k t) (fun j => nth j (o_f c) 0 * x m j) n).
Proof.
  intros (Hq & HN & HNs & Hf & Hw) Hc Hk Hn Hy HE H.
  destruct (init_facts c nsens ref T k Hk Hn) as (D & L & I).
  destruct (run_out c y q T k (online_init 0 c nsens ref T) os_d
    (fun t s i x => let z := nth k (b_z (os_b s)) [] in
       filtered q (o_h c) (o_int c k i) (length (nth k y []) + length z) (frame_with y z k (2 * q) (frame_end c k t)) x)) with (evs := flat_events sched) (r := r)
    as (_ & _ & x & Hx & Sx).
  - intros t st st' Ht [G1 G2] Hup. destruct (update_adds c y q T k Hq HN HNs Hf Hw Hy t st st' Ht G1 G2 Hup) as (U1 & U2 & U3 & _ & X).
    destruct (X Hc) as (x & F & A). split; [split; assumption|]. split; [exact U1|]. exists x. split; [exact F|exact A].
  - intros te st st' U He. destruct (other_event c y k te st st' U He) as (O1 & O2 & O3). auto.
  - split; [rewrite D|rewrite L]; apply repeat_length.
  - exact I.
  - apply Forall_forall. intros [t [k' ty]] Hin U. apply HE. unfold is_update in U. cbn in U |- *. destruct ty; try discriminate. apply Nat.eqb_eq in U. now subst.
  - exact H.
  - exists x. split.
    + intros m t Hm. unfold reached. destruct (foldM (online_event c y) (firstn (S m) (flat_events sched)) (online_init 0 c nsens ref T)) as [s|e] eqn:E.
      * exists s. split; [reflexivity|]. apply (Hx m _ s Hm); [unfold is_update; cbn; apply Nat.eqb_refl|exact E].
      * exfalso. unfold online_run in H. rewrite <- (firstn_skipn (S m) (flat_events sched)), BufFacts.foldM_app, E in H. discriminate.
    + intros n. rewrite Sx. unfold at2 at 1. rewrite D, nth_repeat. lra.
Qed.

Lemma selects_flat q w sel nch : selects q w sel -> flat q w nch (fun ch => if Nat.eqb ch sel then 1 else 0).
Proof. intros H ch b _ Hb. rewrite (H ch b Hb). now destruct (Nat.eqb ch sel). Qed.
Lemma sumR_select n s f : (s < n)%nat -> sumR n (fun ch => (if Nat.eqb ch s then 1 else 0) * f ch) = f s.
Proof.
  intros H. rewrite (sumR_window n s 1); [|lia|].
  - cbn. rewrite Nat.add_0_r, Nat.eqb_refl. lra.
  - intros i Hi Ho. destruct (Nat.eqb_spec i s); [lia|]. lra.
Qed.
Lemma sum_updates_eq k evs v v' : (forall m t, nth_error evs m = Some (t, (k, Up)) -> v m t = v' m t) -> sum_updates k evs v = sum_updates k evs v'.
Proof.
  intros H. unfold sum_updates. apply sumR_ext. intros m Hm. destruct (nth_error evs m) as [[t [k' ty]]|] eqn:E; [|reflexivity].
  unfold is_update. cbn [fst snd]. destruct ty; try reflexivity. destruct (Nat.eqb_spec k' k); [|reflexivity]. subst. now apply H.
Qed.
Lemma sum_updates_scale k evs a v : sum_updates k evs (fun m t => a * v m t) = a * sum_updates k evs v.
Proof.
  unfold sum_updates. rewrite <- WolaFacts.sumR_scale. apply sumR_ext. intros m Hm. destruct (nth_error evs m); [|ring]. destruct (is_update k p); ring.
Qed.

(** Filters that select the reference sensor at every update: the outputs are the
    reference signal times the sum of the window products of the frames over the sample. *)
Theorem C66_selecting_filters c y q T k sched nsens ref r :
  wola_setting c q -> o_comp c = false -> (k < length (o_nodes c))%nat -> length nsens = length (o_nodes c) ->
  Forall (fun col => length col = T) (nth k y []) -> (ref < length (nth k y []))%nat ->
  (forall t, In (t, (k, Up)) (flat_events sched) -> (0 <= frame_end c k t <= Z.of_nat T)%Z) ->
  (forall i, selects q (o_int c k i) ref) -> (forall i, selects q (o_loc c k i) ref) ->
  online_run c y sched (online_init 0 c nsens ref T) = Ok r ->
  forall n, at2 (os_d r) k n = at3 y k ref n * overlap c q k sched n /\ at2 (os_dl r) k n = at3 y k ref n * overlap c q k sched n.
Proof.
  intros HS Hc Hk Hn Hy Href HE Hint Hloc H n. pose proof HS as (Hq & _).
  assert (Lcol : length (nth ref (nth k y []) []) = T) by (rewrite Forall_forall in Hy; apply Hy, nth_In; exact Href).
  assert (G : forall (w : list (list cx)) nch ys x t, selects q w ref -> (ref < nch)%nat ->
     (forall m, ys ref m = frame_of y k (2 * q) (frame_end c k t) ref m) -> In (t, (k, Up)) (flat_events sched) ->
     filtered q (o_h c) w nch ys x ->
     placed (2 * q) (frame_end c k t) (fun j => nth j (o_f c) 0 * x j) n =
     at3 y k ref n * placed (2 * q) (frame_end c k t) (fun j => nth j (o_h c) 0 * nth j (o_f c) 0) n).
  { intros w nch ys x t Hw Hch Hys Hin F.
    rewrite (placed_ext _ _ _ (fun j => (nth j (o_h c) 0 * nth j (o_f c) 0) * sample 0 (nth ref (nth k y []) []) (frame_end c k t - Z.of_nat (2 * q) + Z.of_nat j))).
    - rewrite placed_frame by (rewrite Lcol; apply HE; exact Hin). reflexivity.
    - intros j Hj. rewrite (flat_filtered q (o_h c) w nch _ ys x Hq (selects_flat q w ref nch Hw) F j Hj).
      rewrite (sumR_select nch ref (fun ch => ys ch j)) by exact Hch. rewrite Hys. unfold frame_of. ring. }
  unfold overlap. split.
  - destruct (C66_danse_output c y q T k sched nsens ref r HS Hc Hk Hn Hy HE H) as (x & Hx & ->). rewrite <- sum_updates_scale.
    apply sum_updates_eq. intros m t Hm. destruct (Hx m t Hm) as (s & _ & F). cbv zeta in F.
    eapply G; [apply Hint| |intros m'|exact (nth_error_In _ _ Hm)|exact F]; [lia|]. unfold frame_with. now rewrite (proj2 (Nat.ltb_lt _ _) Href).
  - destruct (C66_local_output c y q T k sched nsens ref r HS Hk Hn Hy HE H) as (x & Hx & ->). rewrite <- sum_updates_scale.
    apply sum_updates_eq. intros m t Hm. eapply G; [apply Hloc|exact Href|reflexivity|exact (nth_error_In _ _ Hm)|exact (Hx m t Hm)].
Qed.

(** Whole program, from the schedule on: exact clocks and filters that select the
    reference sensor.  Except in the first and last frame, the output of every node is its
    reference signal, times the overlap of the windows at that position of the hop. *)
Theorem C66_run_output tsort c y q rr T k nd ordering_of nsens ref :
  let p := o_p c in
  is_argsort tsort -> good_params p -> (p_whole p = true -> p_L p = p_Ns p) ->
  (forall nd, In nd (o_nodes c) -> good_node nd /\ stamps nd <> []) ->
  p_ti p = false -> (p_whole p = true \/ p_efficient p = false) ->
  nth_error (o_nodes c) k = Some nd -> (0 < period nd)%Z -> stamps nd = exact_clock (period nd) T ->
  wola_setting c q -> o_comp c = false -> (2 * q = rr * Z.to_nat (p_Ns p))%nat ->
  length nsens = length (o_nodes c) -> Forall (fun col => length col = T) (nth k y []) -> (ref < length (nth k y []))%nat ->
  (forall i, selects q (o_int c k i) ref) -> (forall i, selects q (o_loc c k i) ref) ->
  exists sched, initialize_events tsort p (o_nodes c) ordering_of = Ok (sched, []) /\
  forall r, online_run c y sched (online_init 0 c nsens ref T) = Ok r ->
  forall n, ((if p_whole p then 0 else p_N p - p_Ns p) <= Z.of_nat n)%Z ->
    (Z.of_nat n < (Z.of_nat T - 1) / p_Ns p * p_Ns p - p_N p - (if p_whole p then p_N p - p_Ns p else 0))%Z ->
    at2 (os_d r) k n = at3 y k ref n * window_sum (o_h c) (o_f c) (Z.to_nat (p_Ns p)) rr (n mod Z.to_nat (p_Ns p)) /\
    at2 (os_dl r) k n = at3 y k ref n * window_sum (o_h c) (o_f c) (Z.to_nat (p_Ns p)) rr (n mod Z.to_nat (p_Ns p)).
Proof.
  intros p Hs Hp Hw Hnodes Hti Heff Hk Hper Hst HS Hc Hrr Hn Hy Href Hint Hloc.
  destruct (scheduled_updates tsort p (o_nodes c) ordering_of k nd T Hs Hp Hw Hnodes Hti Heff Hk Hper Hst) as (sched & E & EU).
  exists sched. split; [exact E|]. intros r H n H1 H2.
  pose proof HS as (Hq & HN & HNs & Hf & Hwo). fold p in HN, HNs.
  assert (CD : cdiv (p_N p) (p_Ns p) = Z.of_nat rr).
  { unfold cdiv. rewrite HN. replace (Z.of_nat (2 * q) + p_Ns p - 1)%Z with (p_Ns p - 1 + Z.of_nat rr * p_Ns p)%Z by lia.
    rewrite Z.div_add by lia. rewrite Z.div_small by lia. lia. }
  rewrite CD in EU.
  assert (FE : forall u, frame_end c k ((Z.of_nat rr * p_Ns p + Z.of_nat u * p_Ns p) * period nd) =
                (Z.of_nat (2 * q) - (if p_whole p then p_N p - p_Ns p else 0) + Z.of_nat (u * Z.to_nat (p_Ns p)))%Z).
  { intros u. unfold frame_end. fold p. rewrite (nth_error_nth _ _ _ Hk). rewrite Z.div_mul by lia. rewrite Hrr. lia. }
  assert (HE : forall t, In (t, (k, Up)) (flat_events sched) -> (0 <= frame_end c k t <= Z.of_nat T)%Z).
  { intros t Hin. assert (Ht : In t (map fst (updates_of k (flat_events sched)))).
    { apply in_map_iff. exists (t, (k, Up)). split; [reflexivity|]. apply filter_In. split; [exact Hin|]. unfold is_update. cbn. apply Nat.eqb_refl. }
    rewrite EU in Ht. apply in_map_iff in Ht. destruct Ht as (u & <- & Hu). apply in_seq in Hu. rewrite FE. unfold update_count in Hu. rewrite CD in Hu.
    pose proof (Z.mul_div_le (Z.of_nat T - 1) (p_Ns p) HNs). destruct (p_whole p); nia. }
  assert (KL : (k < length (o_nodes c))%nat) by (apply nth_error_Some; congruence).
  assert (G : overlap c q k sched n = window_sum (o_h c) (o_f c) (Z.to_nat (p_Ns p)) rr (n mod Z.to_nat (p_Ns p))).
  { unfold overlap. rewrite (sum_updates_list k (flat_events sched) (fun t => placed (2 * q) (frame_end c k t) (fun j => nth j (o_h c) 0 * nth j (o_f c) 0) n)).
    assert (LU : length (updates_of k (flat_events sched)) = update_count p T) by (rewrite <- (map_length fst), EU, map_length, seq_length; reflexivity).
    rewrite LU.
    rewrite (sumR_ext _ _ (fun u => placed (rr * Z.to_nat (p_Ns p)) (Z.of_nat (2 * q) - (if p_whole p then p_N p - p_Ns p else 0) + Z.of_nat (u * Z.to_nat (p_Ns p))) (fun j => nth j (o_h c) 0 * nth j (o_f c) 0) n)).
    - apply regular_sum; [lia|destruct (p_whole p); lia| |].
      + unfold update_count. rewrite CD. destruct (p_whole p); nia.
      + apply Z.mod_divide; [lia|]. exists (if p_whole p then 1 else Z.of_nat rr)%Z. destruct (p_whole p); lia.
    - intros u Hu. rewrite <- Hrr, <- FE. f_equal. f_equal.
      assert (X : nth u (map fst (updates_of k (flat_events sched))) (fst (0%Z, (0%nat, Up))) = fst (nth u (updates_of k (flat_events sched)) (0%Z, (0%nat, Up)))) by apply map_nth.
      rewrite <- X, EU, WolaFacts.nth_map_seq by exact Hu. reflexivity. }
  destruct (C66_selecting_filters c y q T k sched nsens ref r HS Hc KL Hn Hy Href HE Hint Hloc H n) as [D L].
  rewrite D, L, G. auto.
Qed.

(** In particular, windows that overlap-add to one reproduce the reference exactly. *)
Corollary C66_run_reproduces_reference tsort c y q rr T k nd ordering_of nsens ref :
  let p := o_p c in
  is_argsort tsort -> good_params p -> (p_whole p = true -> p_L p = p_Ns p) ->
  (forall nd, In nd (o_nodes c) -> good_node nd /\ stamps nd <> []) ->
  p_ti p = false -> (p_whole p = true \/ p_efficient p = false) ->
  nth_error (o_nodes c) k = Some nd -> (0 < period nd)%Z -> stamps nd = exact_clock (period nd) T ->
  wola_setting c q -> o_comp c = false -> (2 * q = rr * Z.to_nat (p_Ns p))%nat ->
  (forall j, (j < Z.to_nat (p_Ns p))%nat -> window_sum (o_h c) (o_f c) (Z.to_nat (p_Ns p)) rr j = 1) ->
  length nsens = length (o_nodes c) -> Forall (fun col => length col = T) (nth k y []) -> (ref < length (nth k y []))%nat ->
  (forall i, selects q (o_int c k i) ref) -> (forall i, selects q (o_loc c k i) ref) ->
  exists sched, initialize_events tsort p (o_nodes c) ordering_of = Ok (sched, []) /\
  forall r, online_run c y sched (online_init 0 c nsens ref T) = Ok r ->
  forall n, ((if p_whole p then 0 else p_N p - p_Ns p) <= Z.of_nat n)%Z ->
    (Z.of_nat n < (Z.of_nat T - 1) / p_Ns p * p_Ns p - p_N p - (if p_whole p then p_N p - p_Ns p else 0))%Z ->
    at2 (os_d r) k n = at3 y k ref n /\ at2 (os_dl r) k n = at3 y k ref n.
Proof.
  intros p Hs Hp Hw Hnodes Hti Heff Hk Hper Hst HS Hc Hrr HR Hn Hy Href Hint Hloc.
  destruct (C66_run_output tsort c y q rr T k nd ordering_of nsens ref Hs Hp Hw Hnodes Hti Heff Hk Hper Hst HS Hc Hrr Hn Hy Href Hint Hloc) as (sched & E & H).
  exists sched. split; [exact E|]. intros r Hr n H1 H2. destruct (H r Hr n H1 H2) as [D L]. rewrite D, L.
  pose proof HS as (_ & _ & HNs & _). rewrite HR by (apply Nat.mod_upper_bound; unfold p; lia). split; ring.
Qed.

(** Overlap of the windows that the parameters offer. *)
(** Default: square roots of Hann windows on both sides.  With half overlap the overlap is
    below one at the first sample of every hop, for any frame size: the (symmetric) window
    of numpy does not reproduce the reference exactly. *)
Theorem C66_default_windows_refuted q ovlp h :
  (0 < q)%nat -> window SqrtHann (2 * q) ovlp = Ok h ->
  window_sum h h q 2 0 = (1 + cos (PI / INR (2 * q - 1))) / 2 /\ window_sum h h q 2 0 < 1.
Proof.
  intros Hq Hh. injection Hh as <-.
  assert (NZ : INR (2 * q - 1) <> 0) by (apply not_0_INR; lia).
  assert (EI : INR (2 * q - 1) = 2 * INR q - 1) by (rewrite minus_INR, mult_INR by lia; cbn; lra).
  assert (A : forall j, (j < 2 * q)%nat -> nth j (map sqrt (np_hanning (2 * q))) 0 * nth j (map sqrt (np_hanning (2 * q))) 0 =
                1 / 2 + 1 / 2 * cos (PI * (1 - INR (2 * q) + 2 * INR j) / (INR (2 * q) - 1))).
  { intros j Hj. unfold np_hanning. destruct (Nat.eqb_spec (2 * q) 1); [lia|]. rewrite map_map.
    rewrite WolaFacts.nth_map_seq by exact Hj. apply sqrt_sqrt.
    match goal with |- 0 <= _ + _ * cos ?x => pose proof (COS_bound x) end. lra. }
  assert (E : window_sum (map sqrt (np_hanning (2 * q))) (map sqrt (np_hanning (2 * q))) q 2 0 = (1 + cos (PI / INR (2 * q - 1))) / 2).
  { unfold window_sum. cbn [sumR]. replace (0 + 0 * q)%nat with 0%nat by lia. replace (0 + 1 * q)%nat with q by lia.
    rewrite (A 0%nat), (A q) by lia. rewrite mult_INR. cbn [INR]. rewrite EI in *.
    replace (PI * (1 - (1 + 1) * INR q + 2 * 0) / ((1 + 1) * INR q - 1)) with (- PI) by (field; lra).
    replace (PI * (1 - (1 + 1) * INR q + 2 * INR q) / ((1 + 1) * INR q - 1)) with (PI / (2 * INR q - 1)) by (field; lra).
    rewrite cos_neg, cos_PI. lra. }
  split; [exact E|]. apply (Rle_lt_trans _ _ _ (Req_le _ _ E)).
  assert (C : cos (PI / INR (2 * q - 1)) < 1).
  { rewrite <- cos_0. assert (1 <= INR (2 * q - 1)) by (apply (le_INR 1); lia). pose proof PI_RGT_0.
    assert (0 < PI / INR (2 * q - 1) <= PI).
    { split; [apply Rdiv_lt_0_compat; lra|]. apply (Rmult_le_reg_r (INR (2 * q - 1))); [lra|]. unfold Rdiv. rewrite Rmult_assoc, Rinv_l by lra. nra. }
    apply cos_decreasing_1; lra. }
  lra.
Qed.

(** Rectangular windows: number of frames over a sample; the normalised ones overlap to
    one exactly if the overlap parameter is its inverse, i.e. for half overlap. *)
Theorem C66_rectangular_windows Ns r ovlp h g j :
  (j < Ns)%nat -> 0 <= ovlp -> window Rect (r * Ns) ovlp = Ok h -> window RectNormNs (r * Ns) ovlp = Ok g ->
  window_sum h h Ns r j = INR r /\ window_sum g g Ns r j = INR r * ovlp.
Proof.
  intros Hj Ho Hh Hg. injection Hh as <-. injection Hg as <-.
  assert (N : forall v i, (i < r)%nat -> nth (j + i * Ns) (repeat v (r * Ns)) 0 = v).
  { intros v i Hi. rewrite (nth_indep _ 0 v) by (rewrite repeat_length; nia). apply nth_repeat. }
  assert (C : forall v n, sumR n (fun _ => v) = INR n * v).
  { intros v n. induction n as [|n IH]; [cbn; lra|]. cbn [sumR]. rewrite IH, S_INR. lra. }
  unfold window_sum. split.
  - rewrite (sumR_ext r _ (fun _ => 1)), C by (intros; rewrite N by assumption; lra). lra.
  - rewrite (sumR_ext r _ (fun _ => ovlp)), C; [reflexivity|]. intros i Hi. rewrite N by exact Hi.
    replace (1 * sqrt ovlp * (1 * sqrt ovlp)) with (sqrt ovlp * sqrt ovlp) by ring. now apply sqrt_sqrt.
Qed.

(** Two nodes with six samples each, frames of two samples, hop one, rectangular windows:
    the schedule exists, the run finishes and gives the reference signal. *)
Definition c66_cfg : ocfg :=
  mkO (mkP 2 1 1 false false false false false 0 0) [mkNode 1 (exact_clock 1 6) [1%nat]; mkNode 1 (exact_clock 1 6) [0%nat]]
      [1; 1] [/ 2; / 2] true false false 1 false
      (fun k i => [[cr (INR i + 1); cr 2]]) (fun k i => [[cone; cone]; [czero; czero]]) (fun k i => [[cone; cone]])
      (fun k i => []).
Definition c66_y : list (list (list R)) := [[[1; 2; 3; 4; 5; 6]]; [[7; 8; 9; 10; 11; 12]]].
Example C66_ex_windows : exists g, window RectNormNs 2 (1 / 2) = Ok g /\ window_sum g g 1 2 0 = 1.
Proof.
  eexists. split; [reflexivity|]. refine (eq_trans (proj2 (C66_rectangular_windows 1 2 (1 / 2) _ _ 0 (Nat.lt_0_succ 0) ltac:(lra) eq_refl eq_refl)) _). cbn. lra.
Qed.
Example C66_ex : exists sched r,
  initialize_events tsort0 (o_p c66_cfg) (o_nodes c66_cfg) (fun _ => []) = Ok (sched, []) /\
  online_run c66_cfg c66_y sched (online_init 0 c66_cfg [1; 1]%nat 0 6) = Ok r /\
  at2 (os_d r) 0 1 = 2 /\ at2 (os_d r) 0 2 = 3 /\ at2 (os_dl r) 1 2 = 9.
Proof.
  assert (X : forall k nd, nth_error (o_nodes c66_cfg) k = Some nd -> exists sched, initialize_events tsort0 (o_p c66_cfg) (o_nodes c66_cfg) (fun _ => []) = Ok (sched, []) /\
    forall r, online_run c66_cfg c66_y sched (online_init 0 c66_cfg [1; 1]%nat 0 6) = Ok r ->
    forall n, (1 <= n < 3)%nat -> at2 (os_d r) k n = at3 c66_y k 0 n /\ at2 (os_dl r) k n = at3 c66_y k 0 n).
  { intros k nd Hk. assert (K : k = 0%nat \/ k = 1%nat) by (destruct k as [|[|[|k]]]; [auto|auto|discriminate|discriminate]).
    assert (Hnd : In nd (o_nodes c66_cfg)) by (eapply nth_error_In; exact Hk).
    assert (Hp : period nd = 1%Z /\ stamps nd = exact_clock 1 6) by (destruct Hnd as [<-|[<-|[]]]; auto). destruct Hp as [Hp1 Hp2].
    destruct (C66_run_reproduces_reference tsort0 c66_cfg c66_y 1 2 6 k nd (fun _ => []) [1; 1]%nat 0) as (sched & E & HR).
    - exact tsort0_ok.
    - repeat split; reflexivity.
    - discriminate.
    - intros nd' [<-|[<-|[]]]; (split; [split; [|reflexivity]; repeat constructor|discriminate]).
    - reflexivity.
    - now right.
    - exact Hk.
    - lia.
    - now rewrite Hp1.
    - repeat split; [lia].
    - reflexivity.
    - reflexivity.
    - change (Z.to_nat (p_Ns (o_p c66_cfg))) with 1%nat. intros [|j] Hj; [|lia]. unfold window_sum. cbn [sumR nth o_h o_f c66_cfg Nat.add Nat.mul]. lra.
    - reflexivity.
    - destruct K as [->| ->]; repeat constructor.
    - destruct K as [->| ->]; cbn; lia.
    - intros i [|[|[|ch]]] [|[|b]] Hb; try reflexivity; lia.
    - intros i [|[|[|ch]]] [|[|b]] Hb; try reflexivity; lia.
    - exists sched. split; [exact E|]. intros r Hr n Hn. apply (HR r Hr n); cbn; lia. }
  destruct (X 0%nat _ eq_refl) as (sched & E & H0). destruct (X 1%nat _ eq_refl) as (sched1 & E1 & H1).
  rewrite E in E1. injection E1 as <-.
  assert (R : exists r, online_run c66_cfg c66_y sched (online_init 0 c66_cfg [1; 1]%nat 0 6) = Ok r).
  { vm_compute in E. injection E as <-.
    match goal with |- exists r, ?x = Ok r => assert (F : match x with Ok _ => true | Err _ => false end = true); [|destruct x as [r|]; [now exists r|discriminate]] end.
    reflexivity. }
  destruct R as [r Hr]. exists sched, r. split; [exact E|]. split; [exact Hr|].
  destruct (H0 r Hr 1%nat ltac:(lia)) as [-> _]. destruct (H0 r Hr 2%nat ltac:(lia)) as [-> _]. destruct (H1 r Hr 2%nat ltac:(lia)) as [_ ->].
  unfold at3, c66_y. cbn [nth]. auto.
Qed.

Print Assumptions C66_local_output.
Print Assumptions C66_danse_output.
Print Assumptions C66_selecting_filters.
Print Assumptions C66_run_output.
Print Assumptions C66_default_windows_refuted.
Print Assumptions C66_rectangular_windows.
Print Assumptions C66_run_reproduces_reference.
