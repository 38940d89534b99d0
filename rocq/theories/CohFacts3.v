(** Runs of the estimation. *)
From Verif Require Import Base BaseFacts Buffers BufFacts Level Cx CxFacts ChunkSpec SroComp SroSpec SroFacts CohDrift CohSpec CohFacts CohFacts2.
From Verif Require AsyncFacts.
From Coq Require Import Reals Lra Psatz.
Local Open Scope R_scope.

(** The inputs of the compensation of SroComp.v with the estimates of a run. *)
Definition inputs (l : list (list Z * list (list cx))) (est : list (list R)) : list sro_in :=
  map (fun p => mkSI (map (fun f => Some (IZR f)) (fst (fst p))) (snd p) (snd (fst p))) (combine l est).

Lemma combine_snoc {A B} (a : list A) (b : list B) x y : length a = length b -> combine (a ++ [x]) (b ++ [y]) = combine a b ++ [(x, y)].
Proof. revert b. induction a as [|a0 a IH]; intros [|b0 b] H; try discriminate; [reflexivity|]. cbn. now rewrite IH by (injection H; auto). Qed.
Lemma inputs_snoc l est x e : length l = length est -> inputs (l ++ [x]) (est ++ [e]) = inputs l est ++ [mkSI (map (fun f => Some (IZR f)) (fst x)) e (snd x)].
Proof. intros H. unfold inputs. rewrite combine_snoc by exact H. rewrite map_app. reflexivity. Qed.
Lemma inputs_nth l est t : length l = length est -> (t < length l)%nat ->
  nth t (inputs l est) si0 = mkSI (map (fun f => Some (IZR f)) (fst (nth t l ([], [])))) (nth t est []) (snd (nth t l ([], []))).
Proof.
  intros H Ht. unfold inputs. set (F := fun p => _). rewrite (nth_indep _ si0 (F (([], []), []))) by (rewrite map_length, combine_length; lia).
  rewrite map_nth, combine_nth by exact H. reflexivity.
Qed.
Lemma inputs_length l est : length l = length est -> length (inputs l est) = length l.
Proof. intros H. unfold inputs. rewrite map_length, combine_length. lia. Qed.

Section Runs.
  Variables (c : cdpar) (L : Z) (Ns : R) (K nLoc nNeigh : nat).
  Hypothesis HK : (2 <= K)%nat.
  Hypothesis Hev : (0 < cd_every c)%nat.
  Hypothesis Hseg : (cd_seg c <= cd_start c + cd_every c)%nat.
  Let N := (2 * (K - 1))%nat.

  Record shape (l : list (list Z * list (list cx))) (st : cdst) : Prop := {
    sh_navg : length (cs_avg st) = nNeigh;
    sh_avg : Forall (fun a => length a = N) (cs_avg st);
    sh_flags : cs_flags st = map fst l;
    sh_unc : cs_unc st = map snd l;
    sh_nres : length (cs_res st) = length l;
    sh_res : Forall (fun r => length r = nNeigh) (cs_res st);
    sh_est : cs_est st = map (map (from_residual c)) (cs_res st);
    sh_run : exists outs, sro_run nLoc nNeigh N Ns (inputs l (cs_est st)) = Ok (cs_psf st, outs) /\ map snd outs = cs_cmp st
  }.

  Lemma shape_nest l st : shape l st -> length (cs_est st) = length l.
  Proof. intros S. rewrite (sh_est _ _ S), map_length. apply S. Qed.
  Lemma shape_est l st : shape l st -> Forall (fun r => length r = nNeigh) (cs_est st).
  Proof. intros S. rewrite (sh_est _ _ S). rewrite Forall_map. eapply Forall_impl; [|apply (sh_res _ _ S)]. intros r Hr. now rewrite map_length. Qed.

  Lemma inputs_wf l est : Forall (wf_frame K nLoc nNeigh) l -> length l = length est -> Forall (fun r => length r = nNeigh) est -> Forall (wf_in nLoc nNeigh) (inputs l est).
  Proof.
    intros Hl Hn He. unfold inputs. rewrite Forall_map. rewrite Forall_forall in *. intros [x e] Hin. 
    pose proof (in_combine_l _ _ _ _ Hin) as H1. pose proof (in_combine_r _ _ _ _ Hin) as H2. specialize (Hl x H1). specialize (He e H2).
    destruct Hl as (A & B & C). repeat split; cbn; [now rewrite map_length|exact He|exact C].
  Qed.

  Lemma drift_flags l t q : drift (map (fun f => Some (IZR f)) (fst (nth t l ([], [])))) q = IZR (flag_at l q t).
  Proof.
    unfold drift, flag_at. set (f := fst _). destruct (Nat.lt_ge_cases q (length f)) as [H|H].
    - rewrite (nth_indep _ None (Some (IZR 0%Z))) by (rewrite map_length; exact H). now rewrite (map_nth (fun f => Some (IZR f))).
    - rewrite (nth_overflow (map _ _)) by (rewrite map_length; exact H). now rewrite nth_overflow.
  Qed.

  (** Compensated spectra of a run *)
  Lemma compensated l st : Forall (wf_frame K nLoc nNeigh) l -> shape l st ->
    length (cs_cmp st) = length l /\ forall i, (i < length l)%nat -> length (nth i (cs_cmp st) []) = K /\
      forall b ch, (b < K)%nat -> (ch < nLoc + nNeigh)%nat -> entry (nth i (cs_cmp st) []) b ch =
        delayed N b (if (nLoc <=? ch)%nat then shift_at Ns (fun t => IZR (flag_at l (ch - nLoc) t)) (estimate_of st (ch - nLoc)) i else 0) (entry (spectra_at l i) b ch).
  Proof.
    intros Hl S. pose proof (shape_nest _ _ S) as Hn. symmetry in Hn. destruct (sh_run _ _ S) as (outs & E & Ec).
    destruct (sro_run_spec nLoc nNeigh N Ns (inputs l (cs_est st)) ltac:(unfold N; lia) (inputs_wf _ _ Hl Hn (shape_est _ _ S))) as (psf & outs' & E' & _ & Lo & _ & H).
    rewrite E in E'. injection E' as _ <-. rewrite (inputs_length _ _ Hn) in *. rewrite <- Ec, map_length. split; [exact Lo|]. intros i Hi.
    destruct (H i Hi) as (_ & A & B). rewrite (inputs_nth _ _ _ Hn Hi) in A, B. cbn [si_y] in A, B.
    assert (En : nth i (map snd outs) [] = snd (nth i outs (false, []))).
    { rewrite (nth_indep _ [] (snd (false, @nil (list cx)))) by (rewrite map_length; lia). now rewrite map_nth. }
    rewrite En. pose proof (nth_In l ([], []) Hi) as HI. rewrite Forall_forall in Hl. destruct (Hl _ HI) as (_ & HL & _). split; [now rewrite A|].
    intros b ch Hb Hc. rewrite B by (rewrite ?HL; assumption). f_equal. destruct (nLoc <=? ch)%nat; [|reflexivity].
    unfold shift_at. f_equal; [|f_equal]; apply sumR_ext'; intros t Ht; rewrite (inputs_nth _ _ _ Hn) by lia; cbn [si_flags si_est]; [apply drift_flags|reflexivity].
  Qed.

  Lemma coherences_length q y : length (coherences q y) = length y.
  Proof. apply map_length. Qed.

  Lemma instant_after i : is_instant c i = true -> (cd_start c + cd_every c <= i)%nat.
  Proof. unfold is_instant. rewrite andb_true_iff, Nat.leb_le. tauto. Qed.

  (** One more iteration *)
  Lemma run_snoc l st x : Forall (wf_frame K nLoc nNeigh) (l ++ [x]) -> cd_run c L Ns N nLoc nNeigh l = Ok st -> shape l st ->
    exists st' e, cd_run c L Ns N nLoc nNeigh (l ++ [x]) = Ok st' /\ shape (l ++ [x]) st' /\
      length e = nNeigh /\ cs_res st' = cs_res st ++ [map fst e] /\ cs_avg st' = map snd e /\ (exists z, cs_cmp st' = cs_cmp st ++ [z]) /\
      forall q, (q < nNeigh)%nat -> exists st1, estimate_one c L Ns nLoc (length l) q st1 = Ok (nth q e (0, [])) /\
        cs_avg st1 = cs_avg st /\ cs_flags st1 = cs_flags st' /\ cs_unc st1 = cs_unc st' /\ cs_cmp st1 = cs_cmp st'.
  Proof.
    intros Hl E S. pose proof Hl as Hl0. apply Forall_app in Hl. destruct Hl as [Hl Hx]. apply Forall_inv in Hx. destruct Hx as (Hf & Hy & Hr).
    pose proof (shape_nest _ _ S) as Hn. symmetry in Hn.
    destruct (sh_run _ _ S) as (outs & Es & Ec).
    destruct (sro_run_spec nLoc nNeigh N Ns (inputs l (cs_est st)) ltac:(unfold N; lia) (inputs_wf _ _ Hl Hn (shape_est _ _ S))) as (psf & outs' & Es' & Lp & _).
    rewrite Es in Es'. injection Es' as Eps _. rewrite <- Eps in Lp.
    unfold cd_run in *. rewrite foldM_app, E. cbn [bind foldM]. unfold cd_step.
    destruct (Nat.eqb_spec (cd_every c) 0); [lia|]. rewrite Lp.
    destruct (extra_shifts_ok (nLoc + nNeigh) nLoc (map (fun f => Some (IZR f)) (fst x))) as (xs & Ex & Lx & _); [rewrite map_length; lia|]. rewrite Ex. cbn [bind].
    set (psf1 := vadd (cs_psf st) xs). assert (Lp1 : length psf1 = (nLoc + nNeigh)%nat) by (unfold psf1; rewrite AsyncFacts.vadd_len; lia).
    rewrite (sh_unc _ _ S), (sh_flags _ _ S), map_length.
    set (st1 := mkCS psf1 _ _ _ _ _ _).
    destruct (compensated l st Hl S) as (Lc & Hc).
    destruct (mapM_total (fun q => estimate_one c L Ns nLoc (length l) q st1) (seq 0 nNeigh)) as (e & Ee).
    { intros q Hq. apply in_seq in Hq. unfold estimate_one, st1. cbn [cs_avg cs_cmp cs_unc cs_flags].
      rewrite (get_lt (cs_avg st) q []) by (rewrite (sh_navg _ _ S); lia). cbn [bind]. destruct (is_instant c (length l)) eqn:EI; [|eauto].
      pose proof (instant_after _ EI) as Ha. destruct (Nat.ltb_spec (length l) (cd_seg c)); [lia|].
      assert (G : forall i, (i <= length l)%nat -> exists y, get (if cd_closed c then cs_cmp st ++ [apply_shifts N psf1 (snd x)] else map snd l ++ [snd x]) i = Ok y /\ length y = K).
      { intros i Hi. destruct (cd_closed c).
        - destruct (Nat.eq_dec i (length l)) as [->|Hne].
          + exists (apply_shifts N psf1 (snd x)). split; [|now rewrite apply_shifts_len]. rewrite (get_lt _ _ []) by (rewrite app_length; cbn; lia). rewrite app_nth2, Lc, Nat.sub_diag by lia. reflexivity.
          + exists (nth i (cs_cmp st) []). split; [|apply Hc; lia]. rewrite (get_lt _ _ []) by (rewrite app_length; cbn; lia). rewrite app_nth1 by lia. reflexivity.
        - exists (spectra_at (l ++ [x]) i). unfold spectra_at. split.
          + replace (map snd l ++ [snd x]) with (map snd (l ++ [x])) by (now rewrite map_app). rewrite (get_lt _ _ (snd (@nil Z, @nil (list cx)))) by (rewrite map_length, app_length; cbn; lia). now rewrite map_nth.
          + rewrite Forall_forall in Hl0. apply (Hl0 (nth i (l ++ [x]) ([], []))). apply nth_In. rewrite app_length. cbn. lia. }
      destruct (G (length l) ltac:(lia)) as (y1 & E1 & L1). destruct (G (length l - cd_seg c)%nat ltac:(lia)) as (y2 & E2 & L2). rewrite E1, E2. cbn [bind].
      assert (LA : length (nth q (cs_avg st) []) = N) by (pose proof (sh_avg _ _ S) as HA; rewrite Forall_forall in HA; apply HA, nth_In; rewrite (sh_navg _ _ S); lia).
      edestruct (cohdrift_ok c K Ns (coherences (nLoc + q) y1) (coherences (nLoc + q) y2) (nth q (cs_avg st) []) (first_instant c (length l))) as (r & a & -> & _); try (rewrite coherences_length); eauto. }
    rewrite Ee. cbn [bind]. pose proof (mapM_length _ _ _ Ee) as Le. rewrite seq_length in Le.
    destruct (move_shifts_ok nLoc Ns (map (from_residual c) (map fst e)) psf1) as (psf2 & Em & _ & _); [rewrite !map_length; lia|]. rewrite Em. cbn [bind].
    assert (Hq : forall q, (q < nNeigh)%nat -> estimate_one c L Ns nLoc (length l) q st1 = Ok (nth q e (0, []))).
    { intros q Hq. assert (Es1 : nth_error (seq 0 nNeigh) q = Some q) by (rewrite (nth_error_nth' _ 0%nat) by (rewrite seq_length; lia); rewrite seq_nth by lia; reflexivity).
      destruct (mapM_nth _ _ _ _ _ Ee Es1) as (r & E1 & E2). rewrite E2. f_equal. symmetry. now apply nth_error_nth. }
    eexists _, e. split; [reflexivity|]. split; [|split; [exact Le|split; [reflexivity|split; [reflexivity|split; [eexists; reflexivity|]]]]].
    - constructor; cbn [cs_avg cs_flags cs_unc cs_cmp cs_res cs_est cs_psf st1].
      + now rewrite map_length.
      + rewrite Forall_map, Forall_forall. intros [r a] Hin. apply (In_nth _ _ (0, [])) in Hin. destruct Hin as (q & Hq1 & Hq2). rewrite Le in Hq1. specialize (Hq q Hq1). rewrite Hq2 in Hq. cbn [snd].
        unfold estimate_one, st1 in Hq. cbn [cs_avg] in Hq. rewrite (get_lt (cs_avg st) q []) in Hq by (rewrite (sh_navg _ _ S); lia). cbn [bind] in Hq.
        assert (LA : length (nth q (cs_avg st) []) = N) by (pose proof (sh_avg _ _ S) as HA; rewrite Forall_forall in HA; apply HA, nth_In; rewrite (sh_navg _ _ S); lia).
        destruct (is_instant c (length l)) eqn:EI; [|injection Hq as _ <-; exact LA].
        destruct (length l <? cd_seg c)%nat; [discriminate|]. 
        match type of Hq with bind ?u _ = _ => destruct u as [y1|] eqn:E1; [|discriminate] end. cbn [bind] in Hq.
        match type of Hq with bind ?u _ = _ => destruct u as [y2|] eqn:E2; [|discriminate] end. cbn [bind] in Hq.
        unfold cohdrift in Hq. destruct (negb _) eqn:EL; [discriminate|].
        match type of Hq with bind ?u _ = _ => destruct u as [a'|] eqn:EA; [|discriminate] end. cbn [bind] in Hq.
        assert (HL : length y1 = K /\ length y2 = K).
        { cbn [cs_cmp cs_unc] in E1, E2.
          assert (G : forall i y, get (if cd_closed c then cs_cmp st ++ [apply_shifts N psf1 (snd x)] else map snd l ++ [snd x]) i = Ok y -> length y = K).
          { intros i y Ei. destruct (cd_closed c); apply get_ok in Ei; apply nth_error_In in Ei; apply in_app_or in Ei; destruct Ei as [Hi|[<-|[]]].
            - apply (In_nth _ _ []) in Hi. destruct Hi as (j & Hj & <-). apply Hc. lia.
            - now rewrite apply_shifts_len.
            - apply in_map_iff in Hi. destruct Hi as (p & <- & Hp). rewrite Forall_forall in Hl. apply (Hl p Hp).
            - exact Hy. }
          split; eapply G; eassumption. }
        assert (length a' = N).
        { destruct HL as [HL1 HL2]. match type of EA with average ?al ?f ?av ?rr = _ => assert (Lr : length rr = N) by (rewrite with_drift_length; apply residual_length; rewrite coherences_length; assumption); destruct (average_ok al f av rr) as (a2 & EA2 & La2); [congruence|] end.
          rewrite EA in EA2. injection EA2 as ->. congruence. }
        match type of Hq with bind ?u _ = _ => destruct u as [r'|]; [|discriminate] end. cbn [bind] in Hq. injection Hq as _ <-. assumption.
      + rewrite map_app. reflexivity.
      + rewrite map_app. reflexivity.
      + rewrite !app_length, (sh_nres _ _ S). reflexivity.
      + apply Forall_app. split; [apply S|]. constructor; [now rewrite map_length|constructor].
      + rewrite map_app, (sh_est _ _ S). reflexivity.
      + exists (outs ++ [(skip_update (map (fun f => Some (IZR f)) (fst x)), apply_shifts N psf1 (snd x))]). rewrite map_app, Ec. split; [|reflexivity].
        rewrite inputs_snoc by exact Hn. unfold sro_run in *. rewrite foldM_app, Es. cbn [bind foldM]. unfold sro_step. cbn [fst snd si_flags si_est si_y]. rewrite Lp, Ex. cbn [bind]. fold psf1. rewrite Em. reflexivity.
    - intros q Hq'. exists st1. split; [now apply Hq|]. repeat split; cbn; reflexivity.
  Qed.

  Lemma run_ok l : Forall (wf_frame K nLoc nNeigh) l -> exists st, cd_run c L Ns N nLoc nNeigh l = Ok st /\ shape l st.
  Proof.
    induction l as [|x l IH] using rev_ind; intros Hl.
    - eexists. split; [reflexivity|]. constructor; cbn; try reflexivity; try constructor.
      + apply repeat_length.
      + apply Forall_forall. intros a Ha. apply repeat_spec in Ha. subst. apply repeat_length.
      + exists []. split; reflexivity.
    - pose proof Hl as Hl'. apply Forall_app in Hl'. destruct (IH (proj1 Hl')) as (st & E & S).
      destruct (run_snoc l st x Hl E S) as (st' & e & E' & S' & _). eauto.
  Qed.
End Runs.
