(** The closed loop. *)
From Verif Require Import Base BaseFacts Buffers BufFacts Level Cx CxFacts ChunkSpec SroComp SroSpec SroFacts CohDrift CohSpec CohFacts CohFacts2 CohFacts3 CohFacts4 CohFacts5.
From Coq Require Import Reals Lra Psatz.
Local Open Scope R_scope.

Lemma setting_prefix c Ns K nLoc nNeigh l x : setting c Ns K nLoc nNeigh (l ++ [x]) -> setting c Ns K nLoc nNeigh l.
Proof. intros [H1 H2 H3 H4 H5 H6 H7 H8 H9]. constructor; try assumption. now apply Forall_app in H9. Qed.

Lemma drifting_prefix Ns K nLoc l x q g eps : drifting Ns K nLoc (l ++ [x]) q g eps -> drifting Ns K nLoc l q g eps.
Proof.
  intros H. unfold drifting in *. apply copy_prefix in H. intros i b Hi Hb. specialize (H i b Hi Hb). cbn beta in H. rewrite flags_prefix in H by exact Hi. exact H.
Qed.

Lemma ratio_bounds r : 0 <= r -> 0 <= r / (1 + r) <= r.
Proof.
  intros H. split; [apply Rmult_le_pos; [lra|apply Rlt_le, Rinv_0_lt_compat; lra]|]. apply Rmult_le_reg_r with (1 + r); [lra|]. replace (r / (1 + r) * (1 + r)) with r by (field; lra). nra.
Qed.
Lemma ratio_mono r s : 0 <= r <= s -> r / (1 + r) <= s / (1 + s).
Proof. intros H. assert (E : s / (1 + s) - r / (1 + r) = (s - r) / ((1 + s) * (1 + r))) by (field; lra). assert (0 <= (s - r) / ((1 + s) * (1 + r))); [|lra]. apply Rmult_le_pos; [lra|]. apply Rlt_le, Rinv_0_lt_compat, Rmult_lt_0_compat; lra. Qed.

Lemma closed_loop c L Ns K nLoc nNeigh q g eps : cd_closed c = true -> 0 <= eps -> eps * (INR (cd_seg c) * Ns) < 1 -> 0 <= cd_eps c -> cd_eps c * gain K c <= 1 -> (q < nNeigh)%nat ->
  forall l st, setting c Ns K nLoc nNeigh l -> drifting Ns K nLoc l q g eps -> cd_run c L Ns (2 * (K - 1)) nLoc nNeigh l = Ok st ->
  forall i, (i < length l)%nat ->
    (instant c i -> gain K c * (1 - cd_eps c * gain K c) * eps <= residual_of st q i <= gain K c * eps) /\ (~ instant c i -> residual_of st q i = 0).
Proof.
  intros Hc He Hs Ha Hag Hq. set (a := cd_eps c) in *. set (G := gain K c) in *.
  induction l as [|x l IH] using rev_ind; intros st' S D E i Hi; [cbn in Hi; lia|].
  pose proof (set_bins _ _ _ _ _ _ S) as HK. pose proof (set_every _ _ _ _ _ _ S) as Hev. pose proof (gain_ge_1 K c HK) as HG. fold G in HG.
  pose proof (set_hop _ _ _ _ _ _ S) as HN.
  destruct (run_prefix c L Ns K nLoc nNeigh HK Hev (set_start _ _ _ _ _ _ S) (set_alpha _ _ _ _ _ _ S) (set_local _ _ _ _ _ _ S) l x st' (set_frames _ _ _ _ _ _ S) E) as (st & E0 & S0 & S1 & P).
  specialize (IH st (setting_prefix _ _ _ _ _ _ _ S) (drifting_prefix _ _ _ _ _ _ _ _ D) E0).
  assert (He0 : 0 <= G * eps) by (apply Rmult_le_pos; lra).
  assert (Hae : 0 <= a * G) by (apply Rmult_le_pos; lra).
  assert (Hest : forall j, (j < length l)%nat -> 0 <= estimate_of st' q j <= a * G * eps).
  { intros j Hj. rewrite (est_res c L Ns K nLoc nNeigh (l ++ [x]) st' q S E Hq) by (rewrite app_length; lia). rewrite (proj1 (P q j Hj)). unfold from_residual. rewrite Hc. fold a.
    assert (Hr : 0 <= residual_of st q j <= G * eps).
    { destruct (IH j Hj) as [I1 I2]. destruct (instant_dec c j Hev) as [I|I].
      - specialize (I1 I). assert (0 <= G * (1 - a * G) * eps) by (apply Rmult_le_pos; [apply Rmult_le_pos; lra|lra]). lra.
      - rewrite (I2 I). lra. }
    pose proof (ratio_bounds (residual_of st q j) ltac:(lra)) as RB. set (r := residual_of st q j) in *. set (u := r / (1 + r)) in *.
    assert (0 <= u * a) by (apply Rmult_le_pos; lra). assert (u * a <= G * eps * a) by (apply Rmult_le_compat_r; lra). lra. }
  assert (Hx : 0 < INR (cd_seg c) * Ns) by (eapply seg_pos; exact S).
  assert (Hhi : 0 <= eps * (INR (cd_seg c) * Ns)) by (apply Rmult_le_pos; lra).
  assert (Hlo : 0 <= (1 - a * G) * (eps * (INR (cd_seg c) * Ns))) by (apply Rmult_le_pos; lra).
  pose proof (range' c L Ns K nLoc nNeigh (l ++ [x]) st' q g S E Hq _ ((1 - a * G) * (eps * (INR (cd_seg c) * Ns))) (eps * (INR (cd_seg c) * Ns)) ltac:(lra) Hs ltac:(lra) D) as R.
  fold G in R. assert (R' : forall i, (i < length (l ++ [x]))%nat -> instant c i -> (1 - a * G) * (eps * (INR (cd_seg c) * Ns)) <= seg_drift c L Ns (l ++ [x]) st' q (fun i => eps * Ns * INR i - flags_upto (l ++ [x]) q i) i <= eps * (INR (cd_seg c) * Ns)).
  { intros j Hj HI. unfold seg_drift. rewrite Hc, !drifting_delay. rewrite app_length in Hj. cbn in Hj.
    assert (Hsj : (cd_seg c <= j)%nat). { destruct HI as (k & Hk & ->). pose proof (set_start _ _ _ _ _ _ S). nia. }
    rewrite (sumR_split j (j - cd_seg c)) by lia. replace (j - (j - cd_seg c))%nat with (cd_seg c) by lia. rewrite minus_INR by lia.
    pose proof (sumR_bounds (cd_seg c) (fun i => estimate_of st' q (j - cd_seg c + i)%nat) 0 (a * G * eps)) as SB.
    destruct SB as [B1 B2]; [intros t Ht; apply Hest; lia|]. set (Sg := sumR (cd_seg c) _) in *.
    assert (Ns * Sg <= Ns * (a * G * eps * INR (cd_seg c))) by (apply Rmult_le_compat_l; lra). assert (0 <= Ns * Sg) by (apply Rmult_le_pos; lra).
    replace (Ns * (eps * INR j - (sumR (j - cd_seg c) (estimate_of st' q) + Sg)) - Ns * (eps * (INR j - INR (cd_seg c)) - sumR (j - cd_seg c) (estimate_of st' q))) with (eps * (INR (cd_seg c) * Ns) - Ns * Sg) by ring. lra. }
  destruct (R R' i Hi) as [R1 R2]. split; [|exact R2]. intros I. specialize (R1 I). split.
  - apply Rmult_le_reg_r with (INR (cd_seg c) * Ns); [exact Hx|]. lra.
  - apply Rmult_le_reg_r with (INR (cd_seg c) * Ns); [exact Hx|]. lra.
Qed.
