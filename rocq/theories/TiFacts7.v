(** What fusions and updates of topology-independent DANSE compute: fused signals, filters
    and outputs of one node. *)
From Verif Require Import Base BaseFacts Sched SchedSpec Buffers BufFacts Chunk ChunkSpec ChunkFacts ChunkProps Level Cx CxFacts Wola WolaFacts Dist Online OutFacts OutFacts2 CompleteFacts Filt Scm Ext Full FullSpec FullFacts FullFacts7 Batch BatchSigFacts4 InNet InNetSpec TiRun TiSpec TiFacts2 TiFacts5.
From Coq Require Import Reals.
Local Open Scope nat_scope.

Lemma mapM_frames (g : list R -> res (list R * Z * Z)) N e yk :
  (forall col, In col yk -> exists fr, g col = Ok (fr, Z.max (e - N) 0, e) /\ Z.of_nat (length fr) = N /\ forall i, (0 <= i < N)%Z -> nth_error fr (Z.to_nat i) = Some (sample 0%R col (e - N + i))) ->
  exists fr, mapM g yk = Ok fr /\ frames N e yk (chunk_cols fr) /\ forall r, In r fr -> snd (fst r) = Z.max (e - N) 0 /\ snd r = e.
Proof.
  induction yk as [|col yk IH]; intros H.
  - exists []. split; [reflexivity|]. split; [constructor|intros r []].
  - destruct (H col (or_introl eq_refl)) as (c & E & L). destruct IH as (fr & E' & F & P); [intros; apply H; now right|].
    cbn [mapM]. rewrite E. cbn [bind]. rewrite E'. cbn [bind]. eexists. split; [reflexivity|]. split; [constructor; [exact L|exact F]|].
    intros r [<-|Hr]; [split; reflexivity|now apply P].
Qed.
Lemma frames_unique N e yk c1 c2 : frames N e yk c1 -> frames N e yk c2 -> c1 = c2.
Proof.
  intros H. revert c2. induction H as [|col fr yk c1 [L1 S1] F IH]; intros c2 H2; inversion H2 as [|? fr2 ? c2' [L2 S2] F2]; subst; [reflexivity|].
  f_equal; [|now apply IH]. apply nth_error_ext. intros i. destruct (Nat.lt_ge_cases i (length fr)) as [Hi|Hi].
  - specialize (S1 (Z.of_nat i)). specialize (S2 (Z.of_nat i)). rewrite Nat2Z.id in S1, S2. rewrite S1, S2; [reflexivity|lia|lia].
  - rewrite (proj2 (nth_error_None fr i)) by lia. rewrite (proj2 (nth_error_None fr2 i)) by lia. reflexivity.
Qed.
Lemma frames_length N e yk cols : frames N e yk cols -> (forall col, In col cols -> Z.of_nat (length col) = N) /\ length cols = length yk.
Proof.
  induction 1 as [|col fr yk c1 [L1 S1] F [IH1 IH2]]; [split; [intros ? []|reflexivity]|]. split; [|cbn; lia]. intros x [<-|Hx]; auto.
Qed.

(** whole chunks *)
Lemma fused_signal c y t k buf nd sn yk w v lv cols :
  p_whole (o_p (tc_o c)) = true -> (0 < p_N (o_p (tc_o c)))%Z -> nth_error (o_nodes (tc_o c)) k = Some sn -> nth_error y k = Some yk ->
  nth_error (x_ext (tn_x nd)) (x_i (tn_x nd)) = Some w ->
  (forall col, In col yk -> (0 <= t / period sn <= Z.of_nat (length col))%Z) ->
  (if e_start (fn_danse (tn_f nd)) then never_zero (tc_bins c) (length yk) w /\ forall f ch, f < tc_bins c -> ch < length yk -> (v f ch * w f (length yk))%cx = w f ch
   else forall f ch, f < tc_bins c -> ch < length yk -> v f ch = w f ch) ->
  laid_out (length yk) (tc_bins c) v lv -> frames (p_N (o_p (tc_o c))) (t / period sn) yk cols ->
  ti_fusion c y t k buf nd = match compress_whole_chunk (tc_N c) (tc_Ns c) (o_h (tc_o c)) (o_f (tc_o c)) lv cols buf with Ok z => Ok (Some (snd z), nd) | Err e => Err e end.
Proof.
  intros Hwh HN Hsn Hy Hw Ht Hv Hl Hc. unfold ti_fusion, get at 1 2. rewrite Hsn, Hy. cbn [bind].
  destruct (mapM_frames (fun col => local_chunk_for_broadcast 0%R col t (period sn) (p_N (o_p (tc_o c)))) (p_N (o_p (tc_o c))) (t / period sn) yk) as (fr & E & F & _).
  { intros col Hcol. exact (C18_broadcast_chunk R 0%R col t (period sn) (p_N (o_p (tc_o c))) HN (Ht col Hcol)). }
  rewrite E. cbn [bind]. cbv zeta. rewrite (frames_unique _ _ _ _ _ F Hc).
  assert (EX : existsb (fun col => (Z.of_nat (length col) <? p_N (o_p (tc_o c)))%Z) cols = false).
  { apply not_true_is_false. intros X. apply existsb_exists in X. destruct X as (col & Hcol & X). rewrite (proj1 (frames_length _ _ _ _ Hc) col Hcol) in X. lia. }
  rewrite EX, Hwh. unfold get. rewrite Hw. cbn [bind].
  assert (FV : fusion_vector (tc_bins c) (length yk) (e_start (fn_danse (tn_f nd))) w = Ok lv).
  { unfold fusion_vector. destruct (e_start _).
    - destruct Hv as [NZ Hv]. rewrite (proj2 (zero_bin_false _ _ _) NZ). f_equal. symmetry. apply laid_out_unique. destruct Hl as [L1 L2]. split; [exact L1|]. intros ch Hch. destruct (L2 ch Hch) as [A B]. split; [exact A|].
      intros f Hf. rewrite (B f Hf), <- (Hv f ch Hf Hch). specialize (NZ f Hf). replace (v f ch * w f (length yk) * cinv (w f (length yk)))%cx with (v f ch * (w f (length yk) * cinv (w f (length yk))))%cx by ring. rewrite cinv_r by exact NZ. ring.
    - f_equal. symmetry. apply laid_out_unique. destruct Hl as [L1 L2]. split; [exact L1|]. intros ch Hch. destruct (L2 ch Hch) as [A B]. split; [exact A|]. intros f Hf. rewrite (B f Hf). now apply Hv. }
  rewrite FV. cbn [bind]. destruct (compress_whole_chunk _ _ _ _ _ _ _); reflexivity.
Qed.

(** few samples: renewal of the time-domain filter *)
Lemma fusion_few c y t k buf nd z nd' : p_whole (o_p (tc_o c)) = false -> ti_fusion c y t k buf nd = Ok (Some z, nd') ->
  ((Z.abs (t - tn_up nd) < o_every (tc_o c))%Z -> tn_wir nd' = tn_wir nd /\ tn_up nd' = tn_up nd) /\
  ((o_every (tc_o c) <= Z.abs (t - tn_up nd))%Z -> tn_up nd' = t /\
     forall yk w l, nth_error y k = Some yk -> nth_error (x_ext (tn_x nd)) (x_i (tn_x nd)) = Some w -> laid_out (S (length yk)) (tc_bins c) w l ->
       if o_nofuse (tc_o c) && Nat.eqb (length yk) 1 then tn_wir nd' = tn_wir nd else dist_fct_approx (o_h (tc_o c)) (o_f (tc_o c)) (tc_Ns c) l = Ok (tn_wir nd')).
Proof.
  intros Hwh H. unfold ti_fusion in H. apply bind_ok in H. destruct H as (sn & _ & H). apply bind_ok in H. destruct H as (yk & Hy & H). apply get_ok in Hy.
  apply bind_ok in H. destruct H as (fr & _ & H). cbv zeta in H. destruct (existsb _ _); [discriminate|]. apply bind_ok in H. destruct H as (w & Hw & H). apply get_ok in Hw. rewrite Hwh in H.
  apply bind_ok in H. destruct H as (wir & Hwir & H). apply bind_ok in H. destruct H as (z' & _ & H).
  match type of H with Ok (_, ?a) = Ok _ => assert (E : nd' = a) by congruence end. rewrite E. cbn [tn_wir tn_up]. clear E H.
  destruct (Z.leb_spec (o_every (tc_o c)) (Z.abs (t - tn_up nd))) as [D|D]; cbn [andb] in Hwir.
  - split; [lia|]. intros _. split; [reflexivity|]. intros yk' w' l Hy' Hw' Hl. rewrite Hy in Hy'. injection Hy' as <-. rewrite Hw in Hw'. injection Hw' as <-.
    rewrite (laid_out_unique _ _ _ _ Hl). destruct (o_nofuse (tc_o c) && Nat.eqb (length yk) 1); cbn [negb] in Hwir; [now injection Hwir|exact Hwir].
  - split; [|lia]. intros _. injection Hwir as <-. split; reflexivity.
Qed.

(** the filter of an update that is not bypassed, without normalisation *)
Lemma not_normalised c y t k em nd nd' : ti_update c y t k false em nd = Ok nd' ->
  k <> 0 \/ p_seq (o_p (tc_o c)) = false \/ (t < tn_norm nd)%Z ->
  exists w, nth_error (e_w (fn_danse (tn_f nd'))) (S (fn_i (tn_f nd))) = Some w /\ estimated_filter c nd nd' w.
Proof.
  intros H Hn. destruct (update_inv _ _ _ _ _ _ _ _ H) as (yk & u & n1 & n2 & w & x & Hy & Hk1 & Hk2 & H1 & H2 & Hw & _ & E & _).
  assert (N2 : n2 = (n1, tn_norm nd)).
  { unfold normalise in H2. replace (_ && _ && _ && _) with false in H2; [congruence|]. symmetry. destruct Hn as [Hn|[Hn|Hn]].
    - apply Nat.eqb_neq in Hn. rewrite Hn. now rewrite andb_false_r.
    - now rewrite Hn.
    - apply Z.leb_gt in Hn. rewrite Hn. now rewrite andb_false_r. }
  subst n2. cbn [fst] in *. exists w. rewrite E. split; [exact Hw|]. unfold estimated_filter. rewrite E. cbv zeta.
  assert (N := step_next _ _ _ H1 Hk1 Hk2). cbv zeta in N. destruct (_ && _); [congruence|]. now rewrite <- N.
Qed.
Lemma update_norm c y t k byp em nd nd' : ti_update c y t k byp em nd = Ok nd' -> (t < tn_norm nd)%Z -> tn_norm nd' = tn_norm nd.
Proof.
  intros H Ht. destruct (update_inv _ _ _ _ _ _ _ _ H) as (yk & u & n1 & n2 & w & x & _ & _ & _ & _ & H2 & _ & _ & _ & _ & E).
  rewrite E. unfold normalise in H2. apply Z.leb_gt in Ht. rewrite Ht, andb_false_r in H2. now injection H2 as <-.
Qed.
Lemma fusion_norm c y t k buf nd z nd' : ti_fusion c y t k buf nd = Ok (z, nd') -> tn_norm nd' = tn_norm nd.
Proof.
  intros H. unfold ti_fusion in H. apply bind_ok in H. destruct H as (sn & _ & H). apply bind_ok in H. destruct H as (yk & _ & H).
  apply bind_ok in H. destruct H as (fr & _ & H). cbv zeta in H. destruct (existsb _ _); [now injection H as _ <-|]. apply bind_ok in H. destruct H as (w & _ & H).
  destruct (p_whole _).
  - apply bind_ok in H. destruct H as (v & _ & H). apply bind_ok in H. destruct H as (z' & _ & H). now injection H as _ <-.
  - apply bind_ok in H. destruct H as (v & _ & H). apply bind_ok in H. destruct H as (z' & _ & H).
    match type of H with Ok (_, ?a) = Ok _ => assert (E : nd' = a) by congruence end. rewrite E. reflexivity.
Qed.
Lemma reached_norm c y k nd0 nd T : reached_before c y k T nd0 nd -> (T <= tn_norm nd0)%Z -> tn_norm nd = tn_norm nd0.
Proof.
  intros H HT. induction H as [|nd t buf z nd' H IH Ht E|nd t byp em nd' H IH Ht E]; [reflexivity| |].
  - now rewrite (fusion_norm _ _ _ _ _ _ _ _ E).
  - rewrite <- IH. apply (update_norm _ _ _ _ _ _ _ _ E). lia.
Qed.

(** outputs *)
Lemma outputs c y t k byp em nd nd' sn yk : (0 < p_N (o_p (tc_o c)))%Z ->
  let e := (t / period sn - (if p_whole (o_p (tc_o c)) then p_N (o_p (tc_o c)) - p_Ns (o_p (tc_o c)) else 0))%Z in
  ti_update c y t k byp em nd = Ok nd' -> nth_error (o_nodes (tc_o c)) k = Some sn -> nth_error y k = Some yk ->
  (forall col, In col yk -> (0 <= e <= Z.of_nat (length col))%Z) ->
  exists cols w, frames (p_N (o_p (tc_o c))) e yk cols /\ nth_error (e_w (fn_danse (tn_f nd'))) (S (fn_i (tn_f nd))) = Some w /\
    let yhat := spectra (tc_N c) (tc_Ns c) (o_h (tc_o c)) (cols ++ [em]) in
    (forall l, laid_out (S (length yk)) (tc_bins c) w l -> estimate (tc_o c) l yhat (S (length yk)) cols (Z.max (e - p_N (o_p (tc_o c))) 0) e (tn_d nd) = Ok (tn_d nd')) /\
    match fn_local (tn_f nd') with
    | None => tn_dl nd' = tn_dl nd
    | Some el => exists wl, nth_error (e_w el) (S (fn_i (tn_f nd))) = Some wl /\
        forall l, laid_out (length yk) (tc_bins c) wl l -> estimate (tc_o c) l (map (firstn (length yk)) yhat) (length yk) cols (Z.max (e - p_N (o_p (tc_o c))) 0) e (tn_dl nd) = Ok (tn_dl nd')
    end.
Proof.
  intros HN e H Hsn Hy Ht. unfold ti_update in H. unfold get at 1 2 in H. rewrite Hsn, Hy in H. cbn [bind] in H.
  destruct (mapM_frames (fun col => local_chunk_for_update 0%R col t (period sn) (p_whole (o_p (tc_o c))) (p_N (o_p (tc_o c))) (p_Ns (o_p (tc_o c)))) (p_N (o_p (tc_o c))) e yk) as (fr & E & F & P).
  { intros col Hcol. exact (C18_update_chunk R 0%R col t (period sn) (p_whole (o_p (tc_o c))) (p_N (o_p (tc_o c))) (p_Ns (o_p (tc_o c))) HN (Ht col Hcol)). }
  rewrite E in H. cbn [bind] in H. apply bind_ok in H. destruct H as (be & Hbe & H).
  assert (B : be = (Z.max (e - p_N (o_p (tc_o c))) 0, e)%Z). { destruct fr as [|r fr]; [discriminate|]. destruct (P r (or_introl eq_refl)) as [P1 P2]. injection Hbe as <-. now rewrite P1, P2. }
  subst be. cbv zeta in H. destruct (existsb _ _); [discriminate|].
  apply bind_ok in H. destruct H as (vk & _ & H). apply bind_ok in H. destruct H as (v & _ & H).
  apply bind_ok in H. destruct H as (n1 & H1 & H). apply bind_ok in H. destruct H as (n2 & H2 & H). apply bind_ok in H. destruct H as (w & Hw & H). apply get_ok in Hw.
  apply bind_ok in H. destruct H as (x & Hx & H). apply bind_ok in H. destruct H as (d & Hd & H). apply bind_ok in H. destruct H as (dl & Hdl & H).
  match type of H with Ok ?a = Ok _ => assert (E' : nd' = a) by congruence end. rewrite E'. cbn [tn_f tn_d tn_dl]. clear E' H.
  assert (L : length (chunk_cols fr ++ [em]) = S (length yk)) by (rewrite app_length; cbn [length]; rewrite (proj2 (frames_length _ _ _ _ F)); lia).
  rewrite L in Hd. cbn [fst snd] in Hd, Hdl.
  exists (chunk_cols fr), w. split; [exact F|]. split; [exact Hw|]. cbv zeta. split.
  - intros l Hl. now rewrite (laid_out_unique _ _ _ _ Hl).
  - destruct (fn_local (fst n2)) as [el|]; [|now injection Hdl].
    apply bind_ok in Hdl. destruct Hdl as (wl & Hwl & Hdl). apply get_ok in Hwl. exists wl. split; [exact Hwl|]. intros l Hl. now rewrite (laid_out_unique _ _ _ _ Hl).
Qed.
