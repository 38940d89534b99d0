(** Lemmas for the theorems of CohProps.v. *)
From Verif Require Import Base BaseFacts Buffers BufFacts Level Cx CxFacts ChunkSpec SroComp SroSpec SroFacts CohDrift CohSpec CohFacts CohFacts2 CohFacts3 CohFacts4.
From Coq Require Import Reals Lra Psatz.
Local Open Scope R_scope.

Lemma instant_spec c i : (0 < cd_every c)%nat -> (is_instant c i = true <-> instant c i).
Proof.
  intros He. unfold is_instant, instant. rewrite andb_true_iff, Nat.leb_le, Nat.eqb_eq. split.
  - intros [H1 H2]. apply Nat.mod_divides in H2; [|lia]. destruct H2 as [k Hk]. exists (S k). split; [lia|]. cbn. nia.
  - intros (k & Hk & ->). destruct k as [|k]; [lia|]. split; [cbn; nia|]. replace (cd_start c + S k * cd_every c - (cd_start c + cd_every c))%nat with (k * cd_every c)%nat by (cbn; nia). apply Nat.mod_mul. lia.
Qed.
Lemma instant_dec c i : (0 < cd_every c)%nat -> instant c i \/ ~ instant c i.
Proof. intros H. rewrite <- (instant_spec c i H). destruct (is_instant c i); [left; reflexivity|right; discriminate]. Qed.

Lemma ls_gain_bounds K : (2 <= K)%nat -> 0 < ls_gain K - 1 <= 3 / (INR K - 1).
Proof.
  intros HK. assert (H : 2 <= INR K) by (apply (le_INR 2); exact HK). unfold ls_gain.
  assert (E : 2 * INR K * (INR K + 1) / ((INR K - 1) * (2 * INR K - 1)) - 1 = (5 * INR K - 1) / ((INR K - 1) * (2 * INR K - 1))) by (field; lra).
  rewrite E. assert (P : 0 < (INR K - 1) * (2 * INR K - 1)) by (apply Rmult_lt_0_compat; lra). split.
  - apply Rdiv_lt_0_compat; lra.
  - apply Rmult_le_reg_r with ((INR K - 1) * (2 * INR K - 1)); [exact P|].
    replace ((5 * INR K - 1) / ((INR K - 1) * (2 * INR K - 1)) * ((INR K - 1) * (2 * INR K - 1))) with (5 * INR K - 1) by (field; lra).
    replace (3 / (INR K - 1) * ((INR K - 1) * (2 * INR K - 1))) with (3 * (2 * INR K - 1)) by (field; lra). lra.
Qed.
Lemma gain_ge_1 K c : (2 <= K)%nat -> 1 <= gain K c.
Proof. intros HK. unfold gain. pose proof (ls_gain_bounds K HK). destruct (cd_search c); lra. Qed.
Lemma gain_small K c : (14 <= K)%nat -> gain K c <= 6 / 5.
Proof.
  intros HK. assert (H : 14 <= INR K) by (replace 14 with (INR 14) by (cbn; lra); now apply le_INR). unfold gain. destruct (cd_search c); [lra|]. unfold ls_gain.
  assert (P : 0 < (INR K - 1) * (2 * INR K - 1)) by (apply Rmult_lt_0_compat; lra).
  apply Rmult_le_reg_r with ((INR K - 1) * (2 * INR K - 1)); [exact P|].
  replace (2 * INR K * (INR K + 1) / ((INR K - 1) * (2 * INR K - 1)) * ((INR K - 1) * (2 * INR K - 1))) with (2 * INR K * (INR K + 1)) by (field; lra).
  assert (0 <= INR K * (INR K - 14)) by (apply Rmult_le_pos; lra). nra.
Qed.

Section Props.
  Variables (c : cdpar) (L : Z) (Ns : R) (K nLoc nNeigh : nat) (l : list (list Z * list (list cx))) (st : cdst) (q : nat) (g : nat -> cx).
  Hypothesis HS : setting c Ns K nLoc nNeigh l.
  Hypothesis HR : cd_run c L Ns (2 * (K - 1)) nLoc nNeigh l = Ok st.
  Hypothesis Hq : (q < nNeigh)%nat.

  Lemma seg_pos : 0 < INR (cd_seg c) * Ns.
  Proof. apply Rmult_lt_0_compat; [apply lt_0_INR; apply HS|apply HS]. Qed.
  Lemma st_shape : shape c Ns K nLoc nNeigh l st.
  Proof.
    destruct (run_ok c L Ns K nLoc nNeigh (set_bins _ _ _ _ _ _ HS) (set_every _ _ _ _ _ _ HS) (set_start _ _ _ _ _ _ HS) l (set_frames _ _ _ _ _ _ HS)) as (st' & E & S).
    rewrite HR in E. injection E as <-. exact S.
  Qed.

  Lemma range' d lo hi : -1 < lo -> hi < 1 -> hi - lo < 1 -> delayed_copy K nLoc l q g d -> (forall i, (i < length l)%nat -> instant c i -> lo <= seg_drift c L Ns l st q d i <= hi) ->
    forall i, (i < length l)%nat -> (instant c i -> gain K c * lo <= residual_of st q i * (INR (cd_seg c) * Ns) <= gain K c * hi) /\ (~ instant c i -> residual_of st q i = 0).
  Proof.
    intros A B C Hd HD i Hi. pose proof HS as [H1 H2 H3 H4 H5 H6 H7 H8 H9].
    destruct (range c L Ns K nLoc nNeigh H1 H2 H4 seg_pos H6 H7 H8 lo hi l st q g d A B C H9 HR Hq Hd) as (_ & R).
    { intros j Hj HI. apply HD; [exact Hj|]. now apply instant_spec. }
    specialize (R i Hi). rewrite <- (instant_spec c i H2). destruct (is_instant c i); split; intros Hi'; try exact R; try discriminate; now destruct Hi'.
  Qed.

  Lemma remaining_delay d i : delayed_copy K nLoc l q g d -> (i < length l)%nat -> remaining K nLoc l st q g i (compensated_delay Ns l st q d i).
  Proof.
    intros Hd Hi b Hb. pose proof HS as [H1 H2 H3 H4 H5 H6 H7 H8 H9].
    destruct (compensated c Ns K nLoc nNeigh H1 H2 H4 l st H9 st_shape) as (_ & H). destruct (H i Hi) as (_ & HE). rewrite HE by lia.
    destruct (Nat.leb_spec nLoc (nLoc + q)); [|lia]. destruct (Hd i b Hi Hb) as (_ & _ & ->). rewrite delayed_add. f_equal. unfold compensated_delay. now replace (nLoc + q - nLoc)%nat with q by lia.
  Qed.

  (** After compensation, only the offset and the estimates matter. *)
  Lemma drifting_delay eps i : compensated_delay Ns l st q (fun i => eps * Ns * INR i - flags_upto l q i) i = Ns * (eps * INR i - sumR i (estimate_of st q)).
  Proof. unfold compensated_delay, shift_at, flags_upto. ring. Qed.

  Lemma est_res i : (i < length l)%nat -> estimate_of st q i = from_residual c (residual_of st q i).
  Proof. intros Hi. eapply estimate_residual; [exact st_shape|exact Hq|exact Hi]. Qed.
End Props.

(** Number of instants before iteration [i]. *)
Lemma count_instants c e f n : (0 < cd_every c)%nat -> (forall i, (i < n)%nat -> (instant c i -> f i = e) /\ (~ instant c i -> f i = 0)) ->
  forall i, (i <= n)%nat -> sumR i f = INR ((i - 1 - cd_start c) / cd_every c) * e.
Proof.
  intros He Hf. induction i as [|i IH]; intros Hi; [cbn [sumR]; rewrite Nat.div_0_l by lia; cbn; ring|]. rewrite sumS, IH by lia. destruct (Hf i ltac:(lia)) as [F1 F2].
  replace (S i - 1 - cd_start c)%nat with (i - cd_start c)%nat by lia.
  destruct (instant_dec c i He) as [I|I].
  - rewrite F1 by exact I. destruct I as (k & Hk & ->). replace (cd_start c + k * cd_every c - cd_start c)%nat with (k * cd_every c)%nat by lia. rewrite Nat.div_mul by lia.
    replace ((cd_start c + k * cd_every c - 1 - cd_start c) / cd_every c)%nat with (k - 1)%nat; [rewrite minus_INR by lia; cbn; ring|].
    apply (Nat.div_unique _ _ _ (cd_every c - 1)); [lia|]. destruct k as [|k]; [lia|]. replace (S k - 1)%nat with k by lia. cbn. nia.
  - rewrite F2, Rplus_0_r by exact I. f_equal. f_equal. pose proof (Nat.div_mod (i - cd_start c) (cd_every c) ltac:(lia)) as DM. pose proof (Nat.mod_upper_bound (i - cd_start c) (cd_every c) ltac:(lia)) as MB.
    set (k := ((i - cd_start c) / cd_every c)%nat) in *. set (m := ((i - cd_start c) mod cd_every c)%nat) in *.
    clearbody k m. destruct m as [|m].
    + destruct k as [|k].
      * replace (i - 1 - cd_start c)%nat with 0%nat by nia. apply Nat.div_0_l. lia.
      * exfalso. apply I. exists (S k). split; [lia|]. nia.
    + symmetry. apply (Nat.div_unique _ _ _ m); [lia|]. nia.
Qed.

Lemma sumR_bounds n f a b : (forall i, (i < n)%nat -> a <= f i <= b) -> a * INR n <= sumR n f <= b * INR n.
Proof. induction n as [|n IH]; intros H; [cbn; lra|]. rewrite sumS, S_INR. specialize (IH (fun i Hi => H i (Nat.lt_lt_succ_r _ _ Hi))). specialize (H n ltac:(lia)). lra. Qed.
Lemma sumR_split n m f : (m <= n)%nat -> sumR n f = sumR m f + sumR (n - m) (fun i => f (m + i)%nat).
Proof. intros H. replace n with (m + (n - m))%nat at 1 by lia. induction (n - m)%nat as [|k IH]; [rewrite Nat.add_0_r; cbn; ring|]. rewrite Nat.add_succ_r, !sumS, IH. ring. Qed.

(** Frames of one local sensor and one neighbour for the examples: a unit spectrum and
    its copy delayed by [d] samples. *)
Definition ex_frame (K : nat) (p : Z * R) : list Z * list (list cx) := ([fst p], map (fun b => [cone; delayed (2 * (K - 1)) b (snd p) cone]) (seq 0 K)).
Lemma ex_frame_wf K p : wf_frame K 1 1 (ex_frame K p).
Proof.
  split; [reflexivity|]. cbn. split; [now rewrite map_length, seq_length|]. apply Forall_forall. intros r Hr. apply in_map_iff in Hr. destruct Hr as (b & <- & _). reflexivity.
Qed.
Lemma ex_frames_copy K ps d : (forall i, (i < length ps)%nat -> snd (nth i ps (0%Z, 0)) = d i) -> delayed_copy K 1 (map (ex_frame K) ps) 0 (fun _ => cone) d.
Proof.
  intros H i b Hi Hb. rewrite map_length in Hi. unfold spectra_at. rewrite (nth_indep _ _ (ex_frame K (0%Z, 0))) by (rewrite map_length; exact Hi). rewrite map_nth. unfold ex_frame at 1 2 3. cbn [snd].
  unfold entry. set (F := fun b => [cone; _]). rewrite !(nth_indep (map F _) [] (F 0%nat)) by (rewrite map_length, seq_length; exact Hb). rewrite map_nth, seq_nth by exact Hb. unfold F. cbn [nth Nat.add].
  assert (N1 : cone <> czero) by (intros E; apply (f_equal re) in E; cbn in E; lra). split; [exact N1|split; [exact N1|]]. rewrite H by exact Hi. f_equal. ring.
Qed.
