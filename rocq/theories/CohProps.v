(** C71: what the coherence-drift estimation of sampling-rate offsets measures, and what is
    left of the offset after compensation. *)
From Verif Require Import Base BaseFacts Buffers BufFacts Level Cx CxFacts ChunkSpec SroComp SroSpec SroFacts CohDrift CohSpec CohFacts CohFacts2 CohFacts3 CohFacts4 CohFacts5 CohFacts6.
From Verif Require OutFacts3.
From Coq Require Import Reals Lra Psatz.
Local Open Scope R_scope.

(** Runs complete. *)
Theorem C71_runs_complete c L Ns K nLoc nNeigh l : setting c Ns K nLoc nNeigh l ->
  exists st, cd_run c L Ns (2 * (K - 1)) nLoc nNeigh l = Ok st.
Proof.
  intros [H1 H2 H3 H4 H5 H6 H7 H8 H9]. destruct (run_ok c L Ns K nLoc nNeigh H1 H2 H4 l H9) as (st & E & _). eauto.
Qed.

(** The least-squares estimator returns the drift with a gain above one, by at most
    3/(K-1) for K bins. *)
Theorem C71_least_squares_gain K x v t : (2 <= K)%nat -> 0 < x -> -1 < t < 1 -> drift_within K t t v ->
  least_squares K x v = Ok (ls_gain K * t / x) /\ 1 < ls_gain K <= 1 + 3 / (INR K - 1).
Proof.
  intros HK Hx Ht Hv. destruct (least_squares_within K x t t v HK Hx ltac:(lra) ltac:(lra) ltac:(lra) Hv) as (e & -> & B).
  pose proof (ls_gain_bounds K HK). split; [|lra]. f_equal. apply Rmult_eq_reg_r with x; [|lra]. replace (ls_gain K * t / x * x) with (ls_gain K * t) by (field; lra). lra.
Qed.

(** Open loop: residuals between gain times the bounds of the drift over the segments. *)
Theorem C71_open_loop_range c L Ns K nLoc nNeigh l st q g eps lo hi : setting c Ns K nLoc nNeigh l -> cd_closed c = false -> (q < nNeigh)%nat -> drifting Ns K nLoc l q g eps ->
  cd_run c L Ns (2 * (K - 1)) nLoc nNeigh l = Ok st -> -1 < lo -> hi < 1 -> hi - lo < 1 ->
  (forall i, (i < length l)%nat -> instant c i -> lo <= eps * (INR (cd_seg c) * Ns) + (IZR L - 1) * (flags_upto l q i - flags_upto l q (i - cd_seg c)) <= hi) ->
  forall i, (i < length l)%nat -> (instant c i -> gain K c * lo <= residual_of st q i * (INR (cd_seg c) * Ns) <= gain K c * hi) /\ (~ instant c i -> residual_of st q i = 0).
Proof.
  intros S Hc Hq D E A B C H. refine (range' c L Ns K nLoc nNeigh l st q g S E Hq _ lo hi A B C D _).
  intros i Hi HI. specialize (H i Hi HI). unfold seg_drift. rewrite Hc.
  assert (Hs : (cd_seg c <= i)%nat). { destruct HI as (k & Hk & ->). pose proof (set_start _ _ _ _ _ _ S). nia. }
  rewrite (minus_INR i) by exact Hs. lra.
Qed.

(** Open loop, flags in agreement with the broadcast length (one sample, or no flags after
    the first iteration): the residual is the offset times the gain, at every instant. *)
Theorem C71_open_loop c L Ns K nLoc nNeigh l st q g eps : setting c Ns K nLoc nNeigh l -> cd_closed c = false -> (q < nNeigh)%nat -> drifting Ns K nLoc l q g eps ->
  cd_run c L Ns (2 * (K - 1)) nLoc nNeigh l = Ok st -> -1 < eps * (INR (cd_seg c) * Ns) < 1 ->
  L = 1%Z \/ (forall i, (0 < i < length l)%nat -> flag_at l q i = 0%Z) ->
  forall i, (i < length l)%nat ->
    (instant c i -> residual_of st q i = gain K c * eps /\ estimate_of st q i = gain K c * eps / (1 + gain K c * eps)) /\
    (~ instant c i -> estimate_of st q i = 0).
Proof.
  intros S Hc Hq D E Hs HL i Hi.
  assert (Z : forall i, (i < length l)%nat -> (IZR L - 1) * (flags_upto l q i - flags_upto l q (i - cd_seg c)) = 0).
  { intros j Hj. destruct HL as [->|HF]; [ring|].
    assert (F : forall n, (n < length l)%nat -> flags_upto l q n = IZR (flag_at l q 0)).
    { induction n as [|n IH]; intros Hn; unfold flags_upto in *; [cbn [sumR]; ring|]. rewrite sumS, IH, (HF (Datatypes.S n)) by lia. ring. }
    rewrite !F by lia. ring. }
  destruct (C71_open_loop_range c L Ns K nLoc nNeigh l st q g eps (eps * (INR (cd_seg c) * Ns)) (eps * (INR (cd_seg c) * Ns)) S Hc Hq D E (proj1 Hs) (proj2 Hs) ltac:(lra)) with (i := i) as [R1 R2]; [intros j Hj _; rewrite Z by exact Hj; lra|exact Hi|].
  pose proof (seg_pos _ _ _ _ _ _ S) as Hx. rewrite (est_res c L Ns K nLoc nNeigh l st q S E Hq i Hi). unfold from_residual. rewrite Hc. split; intros I.
  - specialize (R1 I). assert (R : residual_of st q i = gain K c * eps) by (apply Rmult_eq_reg_r with (INR (cd_seg c) * Ns); [apply Rle_antisym|]; lra). now rewrite R.
  - rewrite (R2 I). unfold Rdiv. ring.
Qed.

(** ... and each instant removes one hop's worth of the estimated offset: after [i]
    iterations, of which (i-1-start)/every are instants, the compensated channel is late by
    what is left. *)
Theorem C71_open_loop_remaining c L Ns K nLoc nNeigh l st q g eps : setting c Ns K nLoc nNeigh l -> cd_closed c = false -> (q < nNeigh)%nat -> drifting Ns K nLoc l q g eps ->
  cd_run c L Ns (2 * (K - 1)) nLoc nNeigh l = Ok st -> -1 < eps * (INR (cd_seg c) * Ns) < 1 ->
  L = 1%Z \/ (forall i, (0 < i < length l)%nat -> flag_at l q i = 0%Z) ->
  forall i, (i < length l)%nat ->
    remaining K nLoc l st q g i (Ns * (eps * INR i - INR ((i - 1 - cd_start c) / cd_every c) * (gain K c * eps / (1 + gain K c * eps)))).
Proof.
  intros S Hc Hq D E Hs HL i Hi. pose proof (C71_open_loop c L Ns K nLoc nNeigh l st q g eps S Hc Hq D E Hs HL) as R.
  pose proof (remaining_delay c L Ns K nLoc nNeigh l st q g S E Hq _ i D Hi) as H. rewrite drifting_delay in H.
  rewrite (count_instants c (gain K c * eps / (1 + gain K c * eps)) _ (length l) (set_every _ _ _ _ _ _ S)) in H; [exact H| |lia].
  intros j Hj. destruct (R j Hj) as [R1 R2]. split; [intros I; apply (R1 I)|exact R2].
Qed.

(** With estimates every two iterations or less often, two fifths of the drift at least
    are never compensated. *)
Theorem C71_sparse_estimates_refuted c L Ns K nLoc nNeigh l st q g eps : setting c Ns K nLoc nNeigh l -> cd_closed c = false -> (q < nNeigh)%nat -> drifting Ns K nLoc l q g eps ->
  cd_run c L Ns (2 * (K - 1)) nLoc nNeigh l = Ok st -> 0 <= eps -> eps * (INR (cd_seg c) * Ns) < 1 -> L = 1%Z -> (2 <= cd_every c)%nat -> (14 <= K)%nat ->
  forall i, (i < length l)%nat -> exists r, remaining K nLoc l st q g i r /\ 2 / 5 * (eps * Ns * INR i) <= r.
Proof.
  intros S Hc Hq D E He Hs HL Hev HK i Hi. pose proof (seg_pos _ _ _ _ _ _ S) as Hx. assert (0 <= eps * (INR (cd_seg c) * Ns)) by (apply Rmult_le_pos; lra).
  eexists. split; [apply (C71_open_loop_remaining c L Ns K nLoc nNeigh l st q g eps S Hc Hq D E ltac:(lra) (or_introl HL) i Hi)|].
  pose proof (gain_small K c HK) as G1. pose proof (gain_ge_1 K c ltac:(lia)) as G2. pose proof (set_hop _ _ _ _ _ _ S) as HN.
  assert (G3 : 0 <= gain K c * eps) by (apply Rmult_le_pos; lra). assert (G4 : gain K c * eps <= 6 / 5 * eps) by (apply Rmult_le_compat_r; lra).
  pose proof (ratio_bounds (gain K c * eps) G3) as RB. set (e := gain K c * eps / (1 + gain K c * eps)) in *.
  assert (Q : INR ((i - 1 - cd_start c) / cd_every c) <= INR i / 2).
  { assert (Hq2 : (2 * ((i - 1 - cd_start c) / cd_every c) <= i)%nat) by (pose proof (Nat.mul_div_le (i - 1 - cd_start c) (cd_every c) ltac:(lia)); nia).
    apply le_INR in Hq2. rewrite mult_INR in Hq2. cbn [INR] in Hq2. lra. }
  pose proof (pos_INR ((i - 1 - cd_start c) / cd_every c)) as Q0. set (m := INR ((i - 1 - cd_start c) / cd_every c)) in *. pose proof (pos_INR i) as I0. set (n := INR i) in *.
  assert (m * e <= n / 2 * (6 / 5 * eps)) by (apply Rmult_le_compat; lra).
  assert (H5 : 2 / 5 * (eps * n) <= eps * n - m * e) by lra. apply (Rmult_le_compat_l Ns) in H5; lra.
Qed.

(** Closed loop: the estimate never exceeds alphaEps times the gain times the offset, and
    the rest of the drift remains after compensation. *)
Theorem C71_closed_loop c L Ns K nLoc nNeigh l st q g eps : setting c Ns K nLoc nNeigh l -> cd_closed c = true -> (q < nNeigh)%nat -> drifting Ns K nLoc l q g eps ->
  cd_run c L Ns (2 * (K - 1)) nLoc nNeigh l = Ok st -> 0 <= eps -> eps * (INR (cd_seg c) * Ns) < 1 -> 0 <= cd_eps c -> cd_eps c * gain K c <= 1 ->
  forall i, (i < length l)%nat ->
    0 <= estimate_of st q i <= cd_eps c * gain K c * eps /\
    (instant c i -> let r := gain K c * (1 - cd_eps c * gain K c) * eps in cd_eps c * (r / (1 + r)) <= estimate_of st q i) /\
    exists r, remaining K nLoc l st q g i r /\ (1 - cd_eps c * gain K c) * (eps * Ns * INR i) <= r <= eps * Ns * INR i.
Proof.
  intros S Hc Hq D E He Hs Ha Hag. pose proof (set_bins _ _ _ _ _ _ S) as HK. pose proof (gain_ge_1 K c HK) as HG. pose proof (set_hop _ _ _ _ _ _ S) as HN. set (G := gain K c) in *. set (a := cd_eps c) in *.
  assert (He0 : 0 <= G * eps) by (apply Rmult_le_pos; lra).
  assert (Hr0 : 0 <= G * (1 - a * G) * eps) by (apply Rmult_le_pos; [apply Rmult_le_pos; lra|lra]).
  assert (R : forall i, (i < length l)%nat -> 0 <= estimate_of st q i <= a * G * eps /\ (instant c i -> let r := G * (1 - a * G) * eps in a * (r / (1 + r)) <= estimate_of st q i)).
  { intros i Hi. destruct (closed_loop c L Ns K nLoc nNeigh q g eps Hc He Hs Ha Hag Hq l st S D E i Hi) as [R1 R2]. fold G a in R1.
    rewrite (est_res c L Ns K nLoc nNeigh l st q S E Hq i Hi). unfold from_residual. rewrite Hc. fold a.
    assert (Hr : 0 <= residual_of st q i <= G * eps) by (destruct (instant_dec c i (set_every _ _ _ _ _ _ S)) as [I|I]; [specialize (R1 I); lra|rewrite (R2 I); lra]).
    pose proof (ratio_bounds (residual_of st q i) ltac:(lra)) as RB. split.
    - set (r := residual_of st q i) in *. set (u := r / (1 + r)) in *. assert (0 <= u * a) by (apply Rmult_le_pos; lra). assert (u * a <= G * eps * a) by (apply Rmult_le_compat_r; lra). lra.
    - intros I. cbv zeta. specialize (R1 I). set (r := G * (1 - a * G) * eps) in *. pose proof (ratio_mono r (residual_of st q i) ltac:(lra)) as RM. apply (Rmult_le_compat_l a) in RM; lra. }
  intros i Hi. split; [apply R, Hi|split; [apply R, Hi|]].
  exists (Ns * (eps * INR i - sumR i (estimate_of st q))). split; [rewrite <- (drifting_delay Ns l st q eps i); now apply (remaining_delay c L Ns K nLoc nNeigh l st q g S E Hq)|].
  pose proof (sumR_bounds i (estimate_of st q) 0 (a * G * eps)) as SB. destruct SB as [B1 B2]; [intros t Ht; apply R; lia|]. 
  apply (Rmult_le_compat_l Ns) in B1; [|lra]. apply (Rmult_le_compat_l Ns) in B2; [|lra]. lra.
Qed.

(** With the default alphaEps of 1/20, the estimate is at most 6 percent of the offset and
    94 percent of the drift remain, however long the run. *)
Theorem C71_closed_loop_refuted c L Ns K nLoc nNeigh l st q g eps : setting c Ns K nLoc nNeigh l -> cd_closed c = true -> (q < nNeigh)%nat -> drifting Ns K nLoc l q g eps ->
  cd_run c L Ns (2 * (K - 1)) nLoc nNeigh l = Ok st -> 0 <= eps -> eps * (INR (cd_seg c) * Ns) < 1 -> cd_eps c = 1 / 20 -> (14 <= K)%nat ->
  forall i, (i < length l)%nat -> estimate_of st q i <= 3 / 50 * eps /\ exists r, remaining K nLoc l st q g i r /\ 47 / 50 * (eps * Ns * INR i) <= r.
Proof.
  intros S Hc Hq D E He Hs Ha HK i Hi. pose proof (gain_small K c HK) as G1. pose proof (set_hop _ _ _ _ _ _ S) as HN.
  destruct (C71_closed_loop c L Ns K nLoc nNeigh l st q g eps S Hc Hq D E He Hs ltac:(rewrite Ha; lra) ltac:(rewrite Ha; lra) i Hi) as ((_ & B) & _ & r & Hr & B2 & _). rewrite Ha in *.
  assert (1 / 20 * gain K c * eps <= 3 / 50 * eps) by (apply Rmult_le_compat_r; lra). split; [lra|]. exists r. split; [exact Hr|].
  assert (P : 0 <= eps * Ns * INR i) by (apply Rmult_le_pos; [apply Rmult_le_pos; lra|apply pos_INR]).
  assert (47 / 50 * (eps * Ns * INR i) <= (1 - 1 / 20 * gain K c) * (eps * Ns * INR i)) by (apply Rmult_le_compat_r; lra). lra.
Qed.

(** * Examples: one local sensor, one neighbour, spectra of [K] bins, hops of one sample *)

Definition ramp (K : nat) (eps : R) (n : nat) : list (list Z * list (list cx)) := map (ex_frame K) (map (fun i => (0%Z, eps * INR i)) (seq 0 n)).
Definition ex_par (closed : bool) (every : nat) (s : option (list cx -> R)) : cdpar := mkCD closed (19 / 20) 1 every 0 (1 / 20) s.
(** A search for the time lag: phase of the second bin. *)
Definition second_bin (K : nat) (v : list cx) : R := - (angle (nth 1 v czero) * INR (K - 1) / PI).

Lemma ramp_flag K eps n i : flag_at (ramp K eps n) 0 i = 0%Z.
Proof.
  unfold flag_at, ramp. destruct (Nat.lt_ge_cases i n) as [H|H].
  - rewrite (nth_indep _ _ (ex_frame K (0%Z, 0))) by (rewrite !map_length, seq_length; exact H). rewrite map_nth. unfold ex_frame. cbn [fst nth].
    set (F := fun i : nat => (0%Z, eps * INR i)). rewrite (nth_indep _ _ (F 0%nat)) by (rewrite map_length, seq_length; exact H). now rewrite map_nth.
  - rewrite (nth_overflow (map (ex_frame K) _)) by (rewrite !map_length, seq_length; exact H). reflexivity.
Qed.
Lemma ramp_setting closed every s K eps n : (3 <= K)%nat -> (0 < every)%nat -> (s = None \/ s = Some (second_bin K)) -> setting (ex_par closed every s) 1 K 1 1 (ramp K eps n).
Proof.
  intros HK He Hs. constructor; cbn; try lia; try lra.
  - destruct Hs as [-> | -> ]; cbn; [exact Logic.I|]. intros lo hi v Hlo Hhi [Lv Hv]. destruct (Hv 1%nat ltac:(lia)) as (a & t & Ha & Ht & E).
    destruct (Nat.ltb_spec 1 (K - 1)); [|lia]. cbn [sound_method cd_search ex_par]. unfold second_bin. rewrite E. pose proof PI_RGT_0 as HP.
    assert (HK2 : 2 <= INR (K - 1)) by (apply (le_INR 2); lia). cbn [INR].
    assert (B : 0 < PI / INR (K - 1) * 1 <= PI / 2).
    { split; [apply Rmult_lt_0_compat; [apply Rdiv_lt_0_compat; lra|lra]|]. rewrite Rmult_1_r. apply Rmult_le_compat_l; [lra|]. apply Rinv_le_contravar; lra. }
    set (w := PI / INR (K - 1) * 1) in *. rewrite angle_polar; [|exact Ha|].
    + replace (w * t * INR (K - 1) / PI) with t by (unfold w; field; lra). lra.
    + assert (w * t <= w * 1) by (apply Rmult_le_compat_l; lra). assert (w * (-1) <= w * t) by (apply Rmult_le_compat_l; lra). lra.
  - apply Forall_forall. intros p Hp. apply in_map_iff in Hp. destruct Hp as (x & <- & _). apply ex_frame_wf.
Qed.
Lemma ramp_drifting K eps n : drifting 1 K 1 (ramp K eps n) 0 (fun _ => cone) eps.
Proof.
  unfold drifting, ramp. apply ex_frames_copy. intros i Hi. rewrite map_length, seq_length in Hi. set (F := fun i : nat => (0%Z, eps * INR i)).
  rewrite (nth_indep _ _ (F 0%nat)) by (rewrite map_length, seq_length; exact Hi). rewrite map_nth, seq_nth by exact Hi. cbn [F snd Nat.add].
  replace (flags_upto _ 0 i) with 0; [ring|]. symmetry. unfold flags_upto. apply OutFacts3.sumR_zero. intros t _. pose proof (ramp_flag K eps n t) as Ef. unfold ramp in Ef. fold F in Ef. now rewrite Ef.
Qed.
Lemma ramp_length K eps n : length (ramp K eps n) = n.
Proof. unfold ramp. now rewrite !map_length, seq_length. Qed.

(** Open loop, least squares over three bins: gain 12/5; an offset of a tenth is estimated
    as 24/100 / (124/100) = 6/31 at every iteration from the second. *)
Example C71_ex_open n : (2 <= n)%nat -> exists st, cd_run (ex_par false 1 None) 1 1 4 1 1 (ramp 3 (1 / 10) n) = Ok st /\ estimate_of st 0 (n - 1) = 6 / 31.
Proof.
  intros Hn. pose proof (ramp_setting false 1 None 3 (1 / 10) n ltac:(lia) ltac:(lia) (or_introl eq_refl)) as S.
  destruct (C71_runs_complete _ 1 _ _ _ _ _ S) as (st & E). exists st. split; [exact E|].
  destruct (C71_open_loop _ 1 _ _ _ _ _ st 0%nat _ _ S eq_refl ltac:(lia) (ramp_drifting 3 (1 / 10) n) E ltac:(cbn; lra) (or_introl eq_refl) (n - 1)%nat) as [R _]; [rewrite ramp_length; lia|].
  destruct R as [_ ->]; [exists (n - 1)%nat; cbn; lia|]. unfold gain, ls_gain, ex_par. cbn [cd_search INR]. field.
Qed.
(** With a search that finds the time lag: 1/11, that is (1/10) / (1 + 1/10). *)
Example C71_ex_search n : (2 <= n)%nat -> exists st, cd_run (ex_par false 1 (Some (second_bin 3))) 1 1 4 1 1 (ramp 3 (1 / 10) n) = Ok st /\ estimate_of st 0 (n - 1) = 1 / 11.
Proof.
  intros Hn. pose proof (ramp_setting false 1 _ 3 (1 / 10) n ltac:(lia) ltac:(lia) (or_intror eq_refl)) as S.
  destruct (C71_runs_complete _ 1 _ _ _ _ _ S) as (st & E). exists st. split; [exact E|].
  destruct (C71_open_loop _ 1 _ _ _ _ _ st 0%nat _ _ S eq_refl ltac:(lia) (ramp_drifting 3 (1 / 10) n) E ltac:(cbn; lra) (or_introl eq_refl) (n - 1)%nat) as [R _]; [rewrite ramp_length; lia|].
  destruct R as [_ ->]; [exists (n - 1)%nat; cbn; lia|]. unfold gain, ex_par. cbn [cd_search]. field.
Qed.
(** Closed loop, sixteen bins, an offset of a half: the last estimate is below 3/100. *)
Example C71_ex_closed n : (2 <= n)%nat -> exists st, cd_run (ex_par true 1 None) 1 1 30 1 1 (ramp 16 (1 / 2) n) = Ok st /\ estimate_of st 0 (n - 1) <= 3 / 100.
Proof.
  intros Hn. pose proof (ramp_setting true 1 None 16 (1 / 2) n ltac:(lia) ltac:(lia) (or_introl eq_refl)) as S.
  destruct (C71_runs_complete _ 1 _ _ _ _ _ S) as (st & E). exists st. split; [exact E|].
  destruct (C71_closed_loop_refuted _ 1 _ _ _ _ _ st 0%nat _ _ S eq_refl ltac:(lia) (ramp_drifting 16 (1 / 2) n) E ltac:(lra) ltac:(cbn; lra) eq_refl ltac:(lia) (n - 1)%nat) as [R _]; [rewrite ramp_length; lia|]. lra.
Qed.
(** Sparse estimates, sixteen bins. *)
Example C71_ex_sparse n : (2 <= n)%nat -> exists st, cd_run (ex_par false 2 None) 1 1 30 1 1 (ramp 16 (1 / 2) n) = Ok st /\
  exists r, remaining 16 1 (ramp 16 (1 / 2) n) st 0 (fun _ => cone) (n - 1) r /\ 2 / 5 * (1 / 2 * 1 * INR (n - 1)) <= r.
Proof.
  intros Hn. pose proof (ramp_setting false 2 None 16 (1 / 2) n ltac:(lia) ltac:(lia) (or_introl eq_refl)) as S.
  destruct (C71_runs_complete _ 1 _ _ _ _ _ S) as (st & E). exists st. split; [exact E|].
  apply (C71_sparse_estimates_refuted _ 1 _ _ _ _ _ st 0%nat _ _ S eq_refl ltac:(lia) (ramp_drifting 16 (1 / 2) n) E ltac:(lra) ltac:(cbn; lra) eq_refl ltac:(cbn; lia) ltac:(lia)). rewrite ramp_length. lia.
Qed.

(** Flags count in samples in the signals, in broadcast lengths in the estimator: with a
    broadcast length of 2, a flag of -1 in the segment and an offset of a half, the
    residual has the wrong sign. *)
Theorem C71_flags_refuted : exists c l g st, setting c 1 3 1 1 l /\ drifting 1 3 1 l 0 g (1 / 2) /\ cd_closed c = false /\ instant c 1 /\
  cd_run c 2 1 4 1 1 l = Ok st /\ residual_of st 0 1 = gain 3 c * (- (1 / 2)).
Proof.
  set (c := ex_par false 1 None). set (l := map (ex_frame 3) [(0%Z, 0); ((-1)%Z, 3 / 2)]).
  assert (S : setting c 1 3 1 1 l). { destruct (ramp_setting false 1 None 3 0 0 ltac:(lia) ltac:(lia) (or_introl eq_refl)) as [H1 H2 H3 H4 H5 H6 H7 H8 _]. constructor; try assumption. repeat constructor. }
  assert (D : drifting 1 3 1 l 0 (fun _ => cone) (1 / 2)).
  { apply ex_frames_copy. intros [|[|i]] Hi; cbn in Hi; try lia; cbn; lra. }
  destruct (C71_runs_complete c 2 1 3 1 1 l S) as (st & E). exists c, l, (fun _ => cone), st. split; [exact S|split; [exact D|split; [reflexivity|]]].
  assert (HI : instant c 1) by (exists 1%nat; cbn; lia). split; [exact HI|split; [exact E|]].
  destruct (C71_open_loop_range c 2 1 3 1 1 l st 0 _ (1 / 2) (- (1 / 2)) (- (1 / 2)) S eq_refl ltac:(lia) D E ltac:(lra) ltac:(lra) ltac:(lra)) with (i := 1%nat) as [R _]; [|cbn; lia|].
  - intros i Hi (k & Hk & Ei). cbn in Hi, Ei. assert (E1 : i = 1%nat) by lia. clear Ei. rewrite E1. cbn. lra.
  - specialize (R HI). cbn [c ex_par cd_seg INR] in R. rewrite !Rmult_1_r in R. lra.
Qed.

Example C71_ex_gain : drift_within 3 (1 / 2) (1 / 2) (with_drift 0 (residual [cone; cis (PI / 4); cis (PI / 2)] [cone; cone; cone])) /\
  least_squares 3 2 (with_drift 0 (residual [cone; cis (PI / 4); cis (PI / 2)] [cone; cone; cone])) = Ok (12 / 5 * (1 / 2) / 2).
Proof.
  assert (N1 : cone <> czero) by (intros E; apply (f_equal re) in E; cbn in E; lra).
  assert (D : drift_within 3 (1 / 2 - 0 + 0) (1 / 2 - 0 + 0) (with_drift 0 (residual [cone; cis (PI / 4); cis (PI / 2)] [cone; cone; cone]))).
  { apply (product_drift 3 (fun _ => cone) (1 / 2) 0 0); [lia|intros; exact N1| |]; (split; [reflexivity|]); intros b Hb; exists 1; (split; [lra|]).
    - destruct b as [|[|[|b]]]; [| | |lia]; cbn [nth]; replace (INR (3 - 1)) with 2 by (cbn; lra).
      + replace (PI / 2 * INR 0 * (1 / 2)) with 0 by (cbn; field). rewrite cis_0. apply cx_eq; cbn; ring.
      + replace (PI / 2 * INR 1 * (1 / 2)) with (PI / 4) by (cbn; field). apply cx_eq; cbn; ring.
      + replace (PI / 2 * INR 2 * (1 / 2)) with (PI / 2) by (cbn; field). apply cx_eq; cbn; ring.
    - rewrite Rmult_0_r, cis_0. destruct b as [|[|[|b]]]; [| | |lia]; apply cx_eq; cbn; ring. }
  replace (1 / 2 - 0 + 0) with (1 / 2) in D by lra. split; [exact D|].
  destruct (C71_least_squares_gain 3 2 _ (1 / 2) ltac:(lia) ltac:(lra) ltac:(lra) D) as [-> _]. f_equal. unfold ls_gain. cbn. field.
Qed.

Print Assumptions C71_runs_complete.
Print Assumptions C71_least_squares_gain.
Print Assumptions C71_open_loop_range.
Print Assumptions C71_open_loop.
Print Assumptions C71_open_loop_remaining.
Print Assumptions C71_sparse_estimates_refuted.
Print Assumptions C71_closed_loop.
Print Assumptions C71_closed_loop_refuted.
Print Assumptions C71_flags_refuted.
