(** Bounds on the residuals of a run, from bounds on the drift over a segment. *)
From Verif Require Import Base BaseFacts Buffers BufFacts Level Cx CxFacts ChunkSpec SroComp SroSpec SroFacts CohDrift CohSpec CohFacts CohFacts2 CohFacts3.
From Coq Require Import Reals Lra Psatz.
Local Open Scope R_scope.

Lemma delayed_0 N b v : delayed N b 0 v = v.
Proof. unfold delayed. replace (- (2 * PI * INR b * 0 / INR N)) with 0 by (unfold Rdiv; ring). rewrite cis_0. ring. Qed.

Lemma conj_zero z : conj z = czero -> z = czero.
Proof. intros H. pose proof (f_equal re H) as A. pose proof (f_equal im H) as B. cbn in A, B. apply cx_eq; cbn; lra. Qed.
Lemma flag_prefix l x q i : (i < length l)%nat -> flag_at (l ++ [x]) q i = flag_at l q i.
Proof. intros H. unfold flag_at. now rewrite app_nth1. Qed.
Lemma spectra_prefix l x i : (i < length l)%nat -> spectra_at (l ++ [x]) i = spectra_at l i.
Proof. intros H. unfold spectra_at. now rewrite app_nth1. Qed.
Lemma flags_prefix l x q i : (i < length l)%nat -> flags_upto (l ++ [x]) q i = flags_upto l q i.
Proof. intros H. apply sumR_ext'. intros t Ht. rewrite flag_prefix by lia. reflexivity. Qed.
Lemma copy_prefix K nLoc l x q g d : delayed_copy K nLoc (l ++ [x]) q g d -> delayed_copy K nLoc l q g d.
Proof. intros H i b Hi Hb. specialize (H i b). rewrite app_length, spectra_prefix in H by exact Hi. apply H; [lia|exact Hb]. Qed.
Lemma shift_ext Ns f f' e e' i : (forall t, (t <= i)%nat -> f t = f' t) -> (forall t, (t < i)%nat -> e t = e' t) -> shift_at Ns f e i = shift_at Ns f' e' i.
Proof. intros H1 H2. unfold shift_at. f_equal; [|f_equal]; apply sumR_ext'; intros t Ht; [apply H1|apply H2]; lia. Qed.

Lemma cumulated_upto L l q i : (i < length l)%nat -> IZR (cumulated L (map fst l) (S i) q) = IZR L * flags_upto l q i.
Proof.
  intros H. unfold cumulated. rewrite mult_IZR. f_equal. unfold flags_upto.
  assert (G : forall n, (n <= length l)%nat -> IZR (fold_right Z.add 0%Z (map (fun f => nth q f 0%Z) (firstn n (map fst l)))) = sumR n (fun t => IZR (flag_at l q t))).
  { induction n as [|n IH]; intros Hn; [reflexivity|].
    assert (E : firstn (S n) (map fst l) = firstn n (map fst l) ++ [fst (nth n l ([], []))]).
    { revert l Hn H IH. induction n as [|n IHn]; intros [|y l] Hn H IH; cbn in Hn; try lia; [reflexivity|]. specialize (IHn l). cbn [map firstn nth app]. f_equal.
      clear - Hn. revert l Hn. induction n as [|n IHn]; intros [|y l] Hn; cbn in Hn; try lia; [reflexivity|]. cbn [map firstn nth app]. f_equal. apply IHn. lia. }
    rewrite E, map_app. cbn [map]. rewrite sumS. rewrite <- IH by lia.
    assert (F : forall a b, fold_right Z.add 0%Z (a ++ [b]) = (fold_right Z.add 0 a + b)%Z) by (induction a as [|a0 a IHa]; intros b; cbn; [lia|rewrite IHa; lia]).
    rewrite F, plus_IZR. reflexivity. }
  apply G. lia.
Qed.

(** Delay of a channel after compensation, and drift over the segment ending at [i], as
    the estimator sees it. *)
Definition compensated_delay (Ns : R) (l : list (list Z * list (list cx))) (st : cdst) (q : nat) (d : nat -> R) (i : nat) : R :=
  d i + shift_at Ns (fun t => IZR (flag_at l q t)) (estimate_of st q) i.
Definition seg_drift (c : cdpar) (L : Z) (Ns : R) (l : list (list Z * list (list cx))) (st : cdst) (q : nat) (d : nat -> R) (i : nat) : R :=
  if cd_closed c then compensated_delay Ns l st q d i - compensated_delay Ns l st q d (i - cd_seg c)
  else d i - d (i - cd_seg c)%nat + IZR L * (flags_upto l q i - flags_upto l q (i - cd_seg c)).

Section Range.
  Variables (c : cdpar) (L : Z) (Ns : R) (K nLoc nNeigh : nat).
  Hypothesis HK : (2 <= K)%nat.
  Hypothesis Hev : (0 < cd_every c)%nat.
  Hypothesis Hseg : (cd_seg c <= cd_start c + cd_every c)%nat.
  Hypothesis Hx : 0 < INR (cd_seg c) * Ns.
  Hypothesis Hal : 0 <= cd_alpha c <= 1.
  Hypothesis Hm : sound_method K c.
  Hypothesis HnLoc : (0 < nLoc)%nat.
  Notation N := (2 * (K - 1))%nat.

  Lemma estimate_residual l st q i : shape c Ns K nLoc nNeigh l st -> (q < nNeigh)%nat -> (i < length l)%nat -> estimate_of st q i = from_residual c (residual_of st q i).
  Proof.
    intros S Hq Hi. unfold estimate_of, residual_of. rewrite (sh_est _ _ _ _ _ _ _ S).
    rewrite (nth_indep _ [] (map (from_residual c) [])) by (rewrite map_length, (sh_nres _ _ _ _ _ _ _ S); exact Hi). rewrite map_nth.
    assert (Hr : length (nth i (cs_res st) []) = nNeigh).
    { pose proof (sh_res _ _ _ _ _ _ _ S) as H. rewrite Forall_forall in H. apply H, nth_In. rewrite (sh_nres _ _ _ _ _ _ _ S). exact Hi. }
    rewrite (nth_indep _ 0 (from_residual c 0)) by (rewrite map_length, Hr; exact Hq). apply map_nth.
  Qed.

  Lemma copy_coherences l st q g d i : Forall (wf_frame K nLoc nNeigh) l -> shape c Ns K nLoc nNeigh l st -> (q < nNeigh)%nat -> delayed_copy K nLoc l q g d -> (i < length l)%nat ->
    coh_delay K (fun b => conj (g b)) (d i) (coherences (nLoc + q) (spectra_at l i)) /\
    coh_delay K (fun b => conj (g b)) (compensated_delay Ns l st q d i) (coherences (nLoc + q) (nth i (cs_cmp st) [])).
  Proof.
    intros Hl S Hq Hd Hi. destruct (compensated c Ns K nLoc nNeigh HK Hev Hseg l st Hl S) as (Lc & Hc). destruct (Hc i Hi) as (LK & HE). split.
    - apply coherences_delay; [exact HK| |].
      + rewrite Forall_forall in Hl. apply (Hl (nth i l ([], []))). now apply nth_In.
      + intros b Hb. exact (Hd i b Hi Hb).
    - apply coherences_delay; [exact HK|exact LK|]. intros b Hb. destruct (Hd i b Hi Hb) as (A & B & E).
      rewrite (HE b 0%nat Hb ltac:(lia)), (HE b (nLoc + q)%nat Hb ltac:(lia)).
      destruct (Nat.leb_spec nLoc 0); [lia|]. destruct (Nat.leb_spec nLoc (nLoc + q)); [|lia]. rewrite delayed_0, E. split; [exact A|split; [exact B|]].
      replace (nLoc + q - nLoc)%nat with q by lia. rewrite delayed_add. reflexivity.
  Qed.

  Lemma estimate_prefix l x st st' q i r : shape c Ns K nLoc nNeigh l st -> shape c Ns K nLoc nNeigh (l ++ [x]) st' -> cs_res st' = cs_res st ++ [r] -> (i < length l)%nat ->
    residual_of st' q i = residual_of st q i /\ estimate_of st' q i = estimate_of st q i.
  Proof.
    intros S S' E Hi. unfold residual_of, estimate_of. rewrite (sh_est _ _ _ _ _ _ _ S), (sh_est _ _ _ _ _ _ _ S'), E, map_app.
    pose proof (sh_nres _ _ _ _ _ _ _ S). rewrite !app_nth1 by (rewrite ?map_length; lia). tauto.
  Qed.

  Lemma run_prefix l x st' : Forall (wf_frame K nLoc nNeigh) (l ++ [x]) -> cd_run c L Ns N nLoc nNeigh (l ++ [x]) = Ok st' ->
    exists st, cd_run c L Ns N nLoc nNeigh l = Ok st /\ shape c Ns K nLoc nNeigh l st /\ shape c Ns K nLoc nNeigh (l ++ [x]) st' /\
      forall q i, (i < length l)%nat -> residual_of st' q i = residual_of st q i /\ estimate_of st' q i = estimate_of st q i.
  Proof.
    intros Hl E. pose proof Hl as Hl'. apply Forall_app in Hl'. destruct (run_ok c L Ns K nLoc nNeigh HK Hev Hseg l (proj1 Hl')) as (st & E0 & S).
    destruct (run_snoc c L Ns K nLoc nNeigh HK Hev Hseg l st x Hl E0 S) as (st2 & e & E2 & S2 & _ & R & _).
    pose proof E as E3. rewrite E2 in E3. injection E3 as <-. exists st. split; [exact E0|split; [exact S|split; [exact S2|]]]. intros q i Hi. eapply estimate_prefix; eassumption.
  Qed.

  Lemma seg_prefix l x st st' q d i : (i < length l)%nat -> (forall j, (j < length l)%nat -> estimate_of st' q j = estimate_of st q j) ->
    seg_drift c L Ns (l ++ [x]) st' q d i = seg_drift c L Ns l st q d i.
  Proof.
    intros Hi H. assert (C : forall j, (j <= i)%nat -> compensated_delay Ns (l ++ [x]) st' q d j = compensated_delay Ns l st q d j).
    { intros j Hj. unfold compensated_delay. f_equal. apply shift_ext; intros t Ht; [now rewrite flag_prefix by lia|apply H; lia]. }
    unfold seg_drift. destruct (cd_closed c); [rewrite !C by lia; reflexivity|]. rewrite !flags_prefix by lia. reflexivity.
  Qed.

  (** All residuals up to the end of a run. *)
  Lemma range lo hi l st q g d : -1 < lo -> hi < 1 -> hi - lo < 1 -> Forall (wf_frame K nLoc nNeigh) l -> cd_run c L Ns N nLoc nNeigh l = Ok st -> (q < nNeigh)%nat ->
    delayed_copy K nLoc l q g d -> (forall i, (i < length l)%nat -> is_instant c i = true -> lo <= seg_drift c L Ns l st q d i <= hi) ->
    (forall i, (i < length l)%nat -> is_instant c i = true -> drift_within K lo hi (nth q (cs_avg st) [])) /\
    (forall i, (i < length l)%nat -> if is_instant c i then gain K c * lo <= residual_of st q i * (INR (cd_seg c) * Ns) <= gain K c * hi else residual_of st q i = 0).
  Proof.
    intros Hlo Hhi Hw. revert st. induction l as [|x l IH] using rev_ind; intros st' Hl E' Hq Hd HD; [split; intros i Hi; cbn in Hi; lia|].
    pose proof Hl as Hl'. apply Forall_app in Hl'. destruct Hl' as [Hl0 _].
    destruct (run_ok c L Ns K nLoc nNeigh HK Hev Hseg l Hl0) as (st & E & S).
    destruct (run_snoc c L Ns K nLoc nNeigh HK Hev Hseg l st x Hl E S) as (st2 & e & E2 & S2 & Le & R & A & (z & EZ) & HE).
    rewrite E2 in E'. injection E' as ->.
    assert (P : forall i, (i < length l)%nat -> residual_of st' q i = residual_of st q i /\ estimate_of st' q i = estimate_of st q i) by (intros i Hi; eapply estimate_prefix; eassumption).
    destruct (IH st Hl0 E Hq (copy_prefix _ _ _ _ _ _ _ Hd)) as (IA & IR).
    { intros i Hi HI. rewrite <- (seg_prefix l x st st' q d i Hi) by (intros j Hj; apply P; exact Hj). apply HD; [rewrite app_length; lia|exact HI]. }
    destruct (HE q Hq) as (st1 & E1 & EA & EF & EU & EC).
    assert (Lr : nth (length l) (cs_res st') [] = map fst e) by (rewrite R, app_nth2, (sh_nres _ _ _ _ _ _ _ S), Nat.sub_diag by (rewrite (sh_nres _ _ _ _ _ _ _ S); lia); reflexivity).
    assert (Er : residual_of st' q (length l) = fst (nth q e (0, []))) by (unfold residual_of; rewrite Lr; rewrite (nth_indep _ 0 (fst (0, @nil cx))) by (rewrite map_length; lia); apply map_nth).
    assert (Ea : nth q (cs_avg st') [] = snd (nth q e (0, []))) by (rewrite A; rewrite (nth_indep _ [] (snd (0, @nil cx))) by (rewrite map_length; lia); apply map_nth).
    unfold estimate_one in E1. rewrite EA, EF, EU, EC in E1. rewrite (SroFacts.get_lt _ _ []) in E1 by (rewrite (sh_navg _ _ _ _ _ _ _ S); exact Hq). cbn [bind] in E1.
    destruct (is_instant c (length l)) eqn:EI.
    - pose proof (instant_after c _ EI) as Hi. destruct (Nat.ltb_spec (length l) (cd_seg c)); [lia|].
      destruct (compensated c Ns K nLoc nNeigh HK Hev Hseg _ st' Hl S2) as (Lc & _).
      assert (G : forall i, (i <= length l)%nat -> get (if cd_closed c then cs_cmp st' else cs_unc st') i = Ok (if cd_closed c then nth i (cs_cmp st') [] else spectra_at (l ++ [x]) i)).
      { intros i Hi'. destruct (cd_closed c); [rewrite (SroFacts.get_lt _ _ []) by (rewrite Lc, app_length; cbn; lia); reflexivity|].
        rewrite (sh_unc _ _ _ _ _ _ _ S2). rewrite (SroFacts.get_lt _ _ (snd (@nil Z, @nil (list cx)))) by (rewrite map_length, app_length; cbn; lia). now rewrite map_nth. }
      rewrite !G in E1 by lia. cbn [bind] in E1. set (i := length l) in *.
      assert (Hli : forall j, (j <= i)%nat -> (j < length (l ++ [x]))%nat) by (intros j Hj; rewrite app_length; cbn; unfold i in Hj; lia).
      assert (HI : lo <= seg_drift c L Ns (l ++ [x]) st' q d i <= hi) by (apply HD; [apply Hli; lia|exact EI]).
      pose proof (copy_coherences _ _ q g d i Hl S2 Hq Hd ltac:(apply Hli; lia)) as (U1 & C1).
      pose proof (copy_coherences _ _ q g d (i - cd_seg c)%nat Hl S2 Hq Hd ltac:(apply Hli; lia)) as (U2 & C2).
      destruct (nth q e (0, [])) as [r a] eqn:Eq. cbn [fst snd] in *.
      assert (HG : forall b, (b < K)%nat -> conj (g b) <> czero).
      { intros b Hb Z0. destruct (Hd 0%nat b ltac:(apply Hli; lia) Hb) as (_ & B & _). apply B. now apply conj_zero. }
      assert (Hav : first_instant c i = false -> drift_within K lo hi (nth q (cs_avg st) [])).
      { intros EF1. apply (IA (cd_start c + cd_every c)%nat).
        - unfold first_instant in EF1. apply Nat.eqb_neq in EF1. unfold i in *. lia.
        - unfold is_instant. rewrite Nat.leb_refl, Nat.sub_diag, Nat.mod_0_l by lia. reflexivity. }
      assert (B : drift_within K lo hi a /\ gain K c * lo <= r * (INR (cd_seg c) * Ns) <= gain K c * hi).
      { unfold seg_drift in HI. destruct (cd_closed c) eqn:EC1.
        - apply (cohdrift_within c K Ns _ _ _ lo hi _ _ _ _ _ _ r a HK Hx Hal Hm HG C1 C2) in E1; try assumption. rewrite Z.sub_diag. lra.
        - apply (cohdrift_within c K Ns _ _ _ lo hi _ _ _ _ _ _ r a HK Hx Hal Hm HG U1 U2) in E1; try assumption. rewrite minus_IZR, (sh_flags _ _ _ _ _ _ _ S2), !cumulated_upto by (apply Hli; lia). lra. }
      split.
      + intros _ _ _. rewrite Ea. apply B.
      + intros j Hj. rewrite app_length in Hj. cbn in Hj. destruct (Nat.eq_dec j i) as [->|Hne].
        * rewrite EI, Er. apply B.
        * rewrite (proj1 (P j ltac:(unfold i in *; lia))). apply IR. unfold i in *. lia.
    - assert (Ee : nth q e (0, []) = (0, nth q (cs_avg st) [])) by congruence. rewrite Ee in Er, Ea. cbn in Er, Ea. split.
      + intros j Hj HI. rewrite app_length in Hj. cbn in Hj. rewrite Ea. destruct (Nat.eq_dec j (length l)) as [->|Hne]; [congruence|]. apply (IA j); [lia|exact HI].
      + intros j Hj. rewrite app_length in Hj. cbn in Hj. destruct (Nat.eq_dec j (length l)) as [->|Hne]; [now rewrite EI|]. rewrite (proj1 (P j ltac:(lia))). apply IR. lia.
  Qed.
End Range.
