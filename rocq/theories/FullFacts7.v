(** Complete runs with filter estimation: observations compensated for sampling-rate
    offsets; filters of the broadcasts. *)
From Verif Require Import Base BaseFacts Sched Buffers BufFacts Chunk ChunkSpec Level Cx CxFacts Wola WolaFacts Dist SroComp SroSpec SroFacts Online OnlineSpec OnlineFacts3 OutSpec OutFacts OutFacts2 LatestFacts3 CompleteFacts2 Filt FiltSpec FiltFacts Scm Ext Full FullSpec FullFacts FullFacts2 FullFacts3 FullFacts5 FullFacts6.
From Coq Require Import Reals Lra.
Local Open Scope nat_scope.

Lemma read_log {A} (zero : A) nb N Ns k b b' : read_buffers zero nb N Ns k b = Ok b' -> length (snd (List.last (b_log b') (k, []))) = length (nth k (b_z b') []).
Proof.
  intros Eb. unfold read_buffers in Eb. apply bind_ok in Eb. destruct Eb as (nk & _ & Eb).
  apply bind_ok in Eb. destruct Eb as (bk & Hbk & Eb). apply bind_ok in Eb. destruct Eb as (zk & Hzk & Eb). apply bind_ok in Eb. destruct Eb as (ik & Hik & Eb).
  apply bind_ok in Eb. destruct Eb as (cols & Hcols & Eb). injection Eb as <-. cbn [b_z b_log]. rewrite last_last. cbn [snd]. destruct (get_nth _ _ _ [] Hzk) as [_ Lz].
  rewrite nth_upd_eq by exact Lz. now rewrite !map_length.
Qed.
Section Observe.
  Variables (c : acfg) (y : list (list (list R))) (q T k : nat).
  Let o := ac_o c.
  Hypothesis (Hq : 0 < q) (HN : p_N (o_p o) = Z.of_nat (2 * q)).
  Hypothesis (Hf' : length (o_f o) = 2 * q) (Hwola : o_wola o = true) (Hy : Forall (fun col => length col = T) (nth k y [])).

  Lemma observe_comp t byp st u fs xs st' : (0 <= frame_end o k t <= Z.of_nat T)%Z -> o_comp o = true ->
    observe c y t k byp st = Ok u -> online_update (with_filters c y fs xs) y t k st = Ok st' ->
    let z := nth k (b_z (os_b st')) [] in
    let nS := length (nth k y []) in
    let psf := nth k (os_psf st) [] in
    let row := snd (List.last (b_log (os_b st')) (k, [])) in
    length psf = nS + length z ->
    (forall f ch, f <= q -> ch < nS + length z ->
       snd (u_y u) f ch = delayed (2 * q) f (nth ch psf 0 + (if o_fsd o && (nS <=? ch) then IZR (nth (ch - nS) row 0%Z) else 0))%R
         (spectrum (2 * q) (Z.to_nat (p_Ns (o_p o))) (o_h o) (frame_with y z k (2 * q) (frame_end o k t) ch) f)) /\
    (forall f ch, f <= q -> ch < nS ->
       snd (u_yl u) f ch = spectrum (2 * q) (Z.to_nat (p_Ns (o_p o))) (o_h o) (frame_of y k (2 * q) (frame_end o k t) ch) f).
  Proof.
    intros He Hcomp H Ho. cbv zeta. intros Lpsf. unfold observe in H. cbv zeta in H. fold o in H.
    destruct (get (o_nodes o) k) as [nd|] eqn:End; [|discriminate]. cbn [bind] in H.
    destruct (get y k) as [yk|] eqn:Eyk; [|discriminate]. cbn [bind] in H.
    destruct (get (b_i (os_b st)) k) as [ik|] eqn:Eik; [|discriminate]. cbn [bind] in H.
    destruct (read_buffers _ _ _ _ _ _) as [b'|] eqn:Eb; [|discriminate]. cbn [bind] in H.
    destruct (mapM _ yk) as [fr|] eqn:Efr; [|discriminate]. cbn [bind] in H.
    destruct (get (b_z b') k) as [zk|] eqn:Ez; [|discriminate]. cbn [bind] in H.
    destruct (existsb _ _) eqn:Eex; [discriminate|].
    destruct (get (os_psf st) k) as [psf|] eqn:Epsf; [|discriminate]. cbn [bind] in H. rewrite Hcomp in H. cbn [andb] in H. destruct (Nat.eqb k 0 && Nat.eqb (length (nbrs nd)) 0) eqn:Ek0; [discriminate|].
    destruct (extra_shifts _ _ _) as [xx|] eqn:Exx; [|discriminate]. cbn [bind] in H.
    destruct (get (ac_vad c) k) as [vk|] eqn:Evk; [|discriminate]. cbn [bind] in H.
    destruct (get vk ik) as [v|] eqn:Ev; [|discriminate]. cbn [bind] in H. injection H as <-.
    cbn [u_t u_bypass u_skip u_vad u_y u_yl fst snd].
    assert (Bz : os_b st' = b').
    { unfold online_update in Ho. cbv zeta in Ho. change (o_nodes (with_filters c y fs xs)) with (o_nodes o) in Ho. change (o_p (with_filters c y fs xs)) with (o_p o) in Ho.
      rewrite End in Ho. cbn [bind] in Ho. rewrite Eyk in Ho. cbn [bind] in Ho. rewrite Eik in Ho. cbn [bind] in Ho. rewrite Eb in Ho. cbn [bind] in Ho. rewrite Efr in Ho. cbn [bind] in Ho.
      destruct fr as [|r fr']; [discriminate|]. cbn [bind] in Ho. rewrite Ez in Ho. cbn [bind] in Ho. rewrite Eex in Ho.
      rewrite Epsf in Ho. cbn [bind] in Ho. change (o_comp (with_filters c y fs xs)) with (o_comp o) in Ho. rewrite Hcomp in Ho. cbn [andb] in Ho. rewrite Ek0 in Ho.
      rewrite Exx in Ho. cbn [bind] in Ho.
      repeat (match type of Ho with bind ?x _ = _ => destruct x eqn:?; [|discriminate] end; cbn [bind] in Ho). injection Ho as <-. reflexivity. }
    rewrite Bz in Lpsf |- *. destruct (get_nth _ _ _ [] Ez) as [Ez' _]. assert (Lrow := read_log _ _ _ _ _ _ _ Eb). rewrite Ez' in Lpsf, Lrow |- *. destruct (get_nth _ _ _ [] Eyk) as [Eyk' _]. rewrite Eyk' in Lpsf |- *. destruct (get_nth _ _ _ [] Epsf) as [Epsf' _]. rewrite Epsf' in Lpsf |- *.
    destruct (update_frames o y q T k Hq HN Hf' Hwola Hy t yk nd fr End Eyk He Efr) as [Lfr Ffr].
    assert (Lcols : length (chunk_cols fr ++ zk) = length yk + length zk) by (rewrite app_length; unfold chunk_cols; rewrite map_length; lia).
    assert (Loc : forall ch m, ch < length yk -> m < 2 * q -> nth m (nth ch (chunk_cols fr ++ zk) []) 0%R = frame_of y k (2 * q) (frame_end o k t) ch m).
    { intros ch m Hch Hm. rewrite app_nth1 by (unfold chunk_cols; rewrite map_length; lia). unfold chunk_cols.
      destruct (nth_error fr ch) as [r|] eqn:Er; [|apply nth_error_None in Er; lia].
      destruct (Ffr ch r Er) as (_ & _ & _ & F). rewrite <- (F m Hm). f_equal.
      apply nth_error_nth. rewrite nth_error_map, Er. reflexivity. }
    rewrite HN, Nat2Z.id. assert (Hd : 2 * q / 2 = q) by (rewrite Nat.mul_comm; apply Nat.div_mul; lia).
    set (row := snd (last (b_log b') (k, []))) in *.
    destruct (extra_shifts_ok (length psf) (length yk) (map (fun f => Some (IZR f)) row)) as (xx' & Exx' & Lxx & Nxx); [rewrite map_length; lia|].
    rewrite Exx in Exx'. injection Exx' as <-.
    split.
    - intros f ch Hf Hch.
      set (sp := spectra (2 * q) (Z.to_nat (p_Ns (o_p o))) (o_h o) (chunk_cols fr ++ zk)).
      set (psf1 := if o_fsd o then vadd psf xx else psf).
      assert (L1 : length psf1 = length psf) by (unfold psf1; destruct (o_fsd o); [rewrite vadd_length; lia|reflexivity]).
      assert (Ls : length sp = q + 1) by (unfold sp; rewrite spectra_length; lia).
      assert (Lr : length (nth f sp []) = length psf1).
      { unfold sp, spectra. rewrite nth_map_seq by lia. rewrite map_length. lia. }
      assert (E := apply_shifts_entry (2 * q) psf1 sp f ch ltac:(lia) ltac:(lia) Lr ltac:(lia)). unfold entry in E. unfold bins. rewrite E. clear E.
      assert (P : nth ch psf1 0%R = (nth ch psf 0 + (if o_fsd o && (length yk <=? ch) then IZR (nth (ch - length yk) row 0%Z) else 0))%R).
      { unfold psf1. destruct (o_fsd o); cbn [andb]; [|lra]. rewrite OutFacts.nth_vadd by lia. f_equal. rewrite Nxx. destruct (Nat.leb_spec (length yk) ch) as [Hc|Hc]; [|reflexivity].
        unfold drift. rewrite (nth_map_lt _ row (ch - length yk) 0%Z None) by lia. reflexivity. }
      rewrite P. f_equal. change (nth ch (nth f sp []) czero) with (bins sp f ch). unfold sp. rewrite spectra_bin by lia. unfold spectrum. f_equal. apply dft_ext. intros m Hm. do 2 f_equal.
      unfold frame_with. rewrite Eyk'. destruct (Nat.ltb_spec ch (length yk)) as [Hlt|Hge]; [apply Loc; assumption|].
      rewrite app_nth2 by (unfold chunk_cols; rewrite map_length; lia). unfold chunk_cols. rewrite map_length, Lfr. reflexivity.
    - intros f ch Hf Hch. rewrite spectra_bin by lia. unfold spectrum. f_equal. apply dft_ext. intros m Hm. do 2 f_equal. apply Loc; assumption.
  Qed.
End Observe.

Lemma full_compensated c y sched a0 T k m t byp a a' q :
  wola_setting (ac_o c) q -> o_comp (ac_o c) = true -> Forall (fun col => length col = T) (nth k y []) ->
  nth_error (marked_events sched) m = Some ((t, (k, Up)), Some byp) -> (0 <= frame_end (ac_o c) k t <= Z.of_nat T)%Z ->
  full_reached c y sched a0 m = Ok a -> full_reached c y sched a0 (S m) = Ok a' ->
  let z := nth k (b_z (os_b (a_s a'))) [] in
  let nS := length (nth k y []) in
  let spec := spectrum (2 * q) (Z.to_nat (p_Ns (o_p (ac_o c)))) (o_h (ac_o c)) in
  let psf := nth k (os_psf (a_s a)) [] in
  let row := snd (List.last (b_log (os_b (a_s a'))) (k, [])) in
  length psf = nS + length z ->
  exists u, observations c y sched a0 k (S m) = observations c y sched a0 k m ++ [u] /\
    (forall f ch, f <= q -> ch < nS + length z ->
       snd (u_y u) f ch = delayed (2 * q) f (nth ch psf 0 + (if o_fsd (ac_o c) && (nS <=? ch) then IZR (nth (ch - nS) row 0%Z) else 0))%R
         (spec (frame_with y z k (2 * q) (frame_end (ac_o c) k t) ch) f)) /\
    (forall f ch, f <= q -> ch < nS -> snd (u_yl u) f ch = spec (frame_of y k (2 * q) (frame_end (ac_o c) k t) ch) f).
Proof.
  intros (Hq & HN & HNs & Hf & Hw) Hc Hy Hm He Ha Ha'. cbv zeta. intros HL.
  destruct (reach_S c y sched a0 m a' Ha') as [[E _]|(e & a1 & E & E1 & E2)]; [congruence|].
  rewrite Hm in E. injection E as <-. rewrite Ha in E1. injection E1 as <-. unfold full_event in E2. cbn [fst snd] in E2.
  destruct (full_update_inv _ _ _ _ _ _ _ E2) as (n & n' & x & x' & u & w & En & Ex & Eu & _ & _ & _ & _ & _ & Eo).
  exists u. rewrite obs_S, Hm. unfold is_update. cbn [fst snd]. rewrite Nat.eqb_refl, Ha, Eu. split; [reflexivity|].
  exact (observe_comp c y q T k Hq HN Hf Hw Hy t byp (a_s a) u _ _ (a_s a') He Hc Eu Eo HL).
Qed.

(** ** Broadcasts *)
Lemma online_broadcast_ext c1 c2 y t k st : o_p c1 = o_p c2 -> o_nodes c1 = o_nodes c2 -> o_h c1 = o_h c2 -> o_f c1 = o_f c2 -> o_every c1 = o_every c2 -> o_nofuse c1 = o_nofuse c2 ->
  (forall i, nth_error (b_i (os_b st)) k = Some i -> o_ext c1 k i = o_ext c2 k i) -> online_broadcast c1 y t k st = online_broadcast c2 y t k st.
Proof.
  intros E1 E2 E3 E4 E5 E6 HE. unfold online_broadcast. rewrite E1, E2, E3, E4, E5, E6. cbv zeta.
  destruct (get (o_nodes c2) k) as [nd|]; cbn [bind]; [|reflexivity]. destruct (get y k) as [yk|]; cbn [bind]; [|reflexivity].
  destruct (mapM _ yk) as [fr|]; cbn [bind]; [|reflexivity]. destruct (existsb _ _); [reflexivity|]. unfold get at 1 6. destruct (nth_error (b_i (os_b st)) k) as [i|] eqn:Ei; cbn [bind]; [|reflexivity].
  now rewrite (HE i eq_refl).
Qed.
Lemma full_broadcasts c y sched nsens ref T slots a0 k m t b a a' x w :
  starts c nsens ref T slots a0 -> nth_error (marked_events sched) m = Some ((t, (k, Bc)), b) ->
  full_reached c y sched a0 m = Ok a -> full_reached c y sched a0 (S m) = Ok a' ->
  nth_error (a_x a) k = Some x -> nth_error (x_ext x) (x_i x) = Some w ->
  online_broadcast (with_ext (ac_o c) (to_list (length (nth k y [])) (Z.to_nat (p_N (o_p (ac_o c))) / 2 + 1) w)) y t k (a_s a) = Ok (a_s a') /\
  a_f a' = a_f a /\ a_x a' = a_x a.
Proof.
  intros Hs Hm Ha Ha' Hx Hw.
  destruct (reach_S c y sched a0 m a' Ha') as [[E _]|(e & a1 & E & E1 & E2)]; [congruence|].
  rewrite Hm in E. injection E as <-. rewrite Ha in E1. injection E1 as <-. unfold full_event in E2. cbn [fst snd] in E2.
  destruct (full_broadcast_inv _ _ _ _ _ _ E2) as (Ef & Ea & Eo). split; [|auto]. rewrite <- Eo. apply online_broadcast_ext; try reflexivity.
  intros i Hi. cbn [o_ext with_ext with_filters]. f_equal. unfold ext_at. rewrite Hx.
  destruct (run_extends c y _ _ _ Ha (starts_aligned _ _ _ _ _ _ Hs)) as [Al _]. destruct (Al k i Hi) as [_ A2]. rewrite <- (A2 x Hx). symmetry. now apply nth_error_nth.
Qed.

(** ** Arrays of filters *)
Lemma to_list_laid_out m nb w : laid_out m nb w (to_list m nb w).
Proof.
  unfold laid_out, to_list. rewrite map_length, seq_length. split; [reflexivity|]. intros ch H. rewrite (WolaFacts.nth_map_seq _ _ m ch H).
  rewrite map_length, seq_length. split; [reflexivity|]. intros f Hf. exact (WolaFacts.nth_map_seq _ _ nb f Hf).
Qed.
Lemma laid_out_unique m nb w l : laid_out m nb w l -> l = to_list m nb w.
Proof.
  intros (H1 & H2). destruct (to_list_laid_out m nb w) as (T1 & T2). apply nth_ext with (d := []) (d' := []); [congruence|]. intros ch Hc. rewrite H1 in Hc.
  destruct (H2 ch Hc) as (A1 & A2). destruct (T2 ch Hc) as (B1 & B2). apply nth_ext with (d := czero) (d' := czero); [congruence|]. intros f Hf. rewrite A1 in Hf. now rewrite A2, B2.
Qed.
Lemma full_broadcasts_laid c y sched nsens ref T slots a0 k m t b a a' x w l :
  starts c nsens ref T slots a0 -> nth_error (marked_events sched) m = Some ((t, (k, Bc)), b) ->
  full_reached c y sched a0 m = Ok a -> full_reached c y sched a0 (S m) = Ok a' ->
  nth_error (a_x a) k = Some x -> nth_error (x_ext x) (x_i x) = Some w ->
  laid_out (length (nth k y [])) (Z.to_nat (p_N (o_p (ac_o c))) / 2 + 1) w l ->
  online_broadcast (with_ext (ac_o c) l) y t k (a_s a) = Ok (a_s a') /\ a_f a' = a_f a /\ a_x a' = a_x a.
Proof. intros H1 H2 H3 H4 H5 H6 H7. rewrite (laid_out_unique _ _ _ _ H7). exact (full_broadcasts c y sched nsens ref T slots a0 k m t b a a' x w H1 H2 H3 H4 H5 H6). Qed.
Lemma full_replay_settings c y a k n x e : nth_error (a_f a) k = Some n -> nth_error (a_x a) k = Some x -> fn_local n = Some e ->
  let o := ac_o c in let r := replay c y a in
  let m := length (nth k y []) in
  let nb := (Z.to_nat (p_N (o_p o)) / 2 + 1)%nat in
  (o_p r = o_p o /\ o_nodes r = o_nodes o /\ o_h r = o_h o /\ o_f r = o_f o /\ o_wola r = o_wola o /\ o_comp r = o_comp o /\
   o_fsd r = o_fsd o /\ o_every r = o_every o /\ o_nofuse r = o_nofuse o /\ o_est r = o_est o) /\
  forall i w, (nth_error (x_ext x) i = Some w -> laid_out m nb w (o_ext r k i)) /\
    (nth_error (e_w (fn_danse n)) i = Some w -> laid_out (m + length (nbrs (nth k (o_nodes o) (mkNode 1 [] [])))) nb w (o_int r k i)) /\
    (nth_error (e_w e) i = Some w -> laid_out m nb w (o_loc r k i)).
Proof.
  intros Hn Hx He. cbv zeta. split; [repeat split|]. intros i w. unfold replay, with_filters, ext_at, int_at, loc_at. cbn [o_ext o_int o_loc]. rewrite Hn, Hx, He.
  split; [|split]; intros H; rewrite (nth_error_nth _ _ no_coefs H); apply to_list_laid_out.
Qed.
