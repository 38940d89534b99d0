(** Complete runs of synchronous networks do not fail: events. *)
From Verif Require Import Base BaseFacts Sched SchedSpec InstSpec InstFacts Buffers BufSpec BufFacts BufNat Chunk ChunkSpec ChunkFacts ChunkProps Level Cx CxFacts Wola WolaFacts WolaProps Dist SroComp Online OnlineSpec OutSpec OutFacts OutFacts2 DistSpec DistFacts DistFacts2 DistFacts3 LatestSpec LatestFacts2 CompleteFacts.
From Coq Require Import Reals Lra.
Local Open Scope Z_scope.

Definition forget (b : bstate R) : bstate unit := bmap (fun _ : R => tt) b.
Definition blank : nat -> Z -> Z -> list unit := fun _ _ n => repeat tt (Z.to_nat n).

Lemma map_tt {A} (z : list A) : map (fun _ => tt) z = repeat tt (length z).
Proof. induction z; cbn; congruence. Qed.

Lemma nth_map_lt {A B} (f : A -> B) l k d d' : (k < length l)%nat -> nth k (map f l) d' = f (nth k l d).
Proof. intros H. rewrite (nth_indep _ d' (f d)) by (rewrite map_length; exact H). apply map_nth. Qed.

Section Events.
  Variables (c : ocfg) (y : list (list (list R))) (nsens : list nat) (q T : nat).
  Hypothesis Hc : consistent c y nsens q T.
  Let p := o_p c.
  Let nodes := o_nodes c.
  Hypothesis Hgp : good_params p.
  Hypothesis Hwh : p_whole p = true -> p_N p = 2 * p_Ns p.
  Hypothesis Hfew : p_whole p = false -> p_efficient p = false /\ p_L p <= p_N p.
  Let nS k := length (nth k y []).
  Let nN k := length (nbrs (nth k nodes (mkNode 1 [] []))).

  Record good_state (s : ostate R) : Prop := {
    gs_zl : length (os_zl s) = length y;
    gs_wir : length (os_wir s) = length y;
    gs_up : length (os_up s) = length y;
    gs_psf : length (os_psf s) = length y;
    gs_d : length (os_d s) = length y;
    gs_dl : length (os_dl s) = length y;
    gs_i : length (b_i (os_b s)) = length y;
    gs_last : length (b_last (os_b s)) = length y;
    gs_z1 : forall k, nth k (os_zl s) [] = [] \/ p_whole p = false \/ length (nth k (os_zl s) []) = (2 * q)%nat;
    gs_w1 : forall k, (k < length y)%nat -> length (nth k (os_wir s) []) = nS k /\ Forall (fun w => length w = (2 * (2 * q) - 1)%nat) (nth k (os_wir s) []);
    gs_p1 : forall k, (k < length y)%nat -> length (nth k (os_psf s) []) = (nS k + nN k)%nat;
    gs_d1 : forall k, (k < length y)%nat -> length (nth k (os_d s) []) = T;
    gs_dl1 : forall k, (k < length y)%nat -> length (nth k (os_dl s) []) = T
  }.

  Lemma nth_upd_cases {A} k j (x d : A) l : (k < length l)%nat -> nth j (upd k x l) d = if Nat.eqb k j then x else nth j l d.
  Proof. intros H. destruct (Nat.eqb_spec k j) as [<-|Hne]; [now apply nth_upd_eq|now apply nth_upd_ne]. Qed.

  Lemma signals k : (k < length y)%nat -> nth k y [] <> [] /\ Forall (fun col => length col = T) (nth k y []).
  Proof. intros H. pose proof (cs_signals _ _ _ _ _ Hc) as F. rewrite Forall_forall in F. apply F, nth_In, H. Qed.

  (** broadcasts *)
  Lemma broadcast_ok t k s ub : good_state s -> (k < length y)%nat ->
    0 <= t / period (nth k nodes (mkNode 1 [] [])) <= Z.of_nat T ->
    broadcast p nodes blank t k (forget (os_b s)) = Ok ub ->
    exists s', online_broadcast c y t k s = Ok s' /\ good_state s' /\ forget (os_b s') = ub.
  Proof.
    intros G Hk He HU. destruct Hgp as (HN & HNs & HL). destruct (cs_frame _ _ _ _ _ Hc) as [Hq EN]. destruct (cs_windows _ _ _ _ _ Hc) as (Hh & Hf & _). fold p in EN.
    pose proof (cs_nodes _ _ _ _ _ Hc) as LN.
    unfold online_broadcast. fold p nodes. rewrite (get_lt nodes k (mkNode 1 [] [])) by (unfold nodes; lia). cbn [bind]. rewrite (get_lt y k []) by exact Hk. cbn [bind].
    set (nd := nth k nodes (mkNode 1 [] [])) in *.
    destruct (signals k Hk) as [_ HS]. rewrite Forall_forall in HS.
    destruct (mapM_all (fun col => local_chunk_for_broadcast 0%R col t (period nd) (p_N p)) (fun r => Z.of_nat (length (fst (fst r))) = p_N p) (nth k y [])) as (fr & Efr & Pfr).
    { intros col Hcol. destruct (C18_broadcast_chunk R 0%R col t (period nd) (p_N p)) as (ch & E & L & _); [lia|rewrite (HS col Hcol); lia|]. exists (ch, Z.max (t / period nd - p_N p) 0, t / period nd). split; [exact E|exact L]. }
    rewrite Efr. cbn [bind]. cbv zeta.
    assert (Lfr : length fr = nS k) by (apply mapM_length in Efr; exact Efr).
    assert (FC : Forall (fun col => Z.of_nat (length col) = p_N p) (chunk_cols fr)) by (unfold chunk_cols; rewrite Forall_map; exact Pfr).
    assert (LC : length (chunk_cols fr) = nS k) by (unfold chunk_cols; rewrite map_length; exact Lfr).
    assert (EX : existsb (fun col => Z.of_nat (length col) <? p_N p) (chunk_cols fr) = false).
    { destruct (existsb _ _) eqn:X; [|reflexivity]. apply existsb_exists in X. destruct X as (col & Hcol & X). rewrite Forall_forall in FC. specialize (FC col Hcol). lia. }
    rewrite EX. rewrite (get_lt (b_i (os_b s)) k 0%nat) by (rewrite (gs_i s G); exact Hk). cbn [bind].
    set (ik := nth k (b_i (os_b s)) 0%nat).
    assert (Hnd : get nodes k = Ok nd) by (apply get_lt; unfold nodes; lia).
    unfold broadcast in HU. rewrite Hnd in HU. cbn [bind] in HU.
    destruct (p_whole p) eqn:Hw.
    - rewrite (get_lt (os_zl s) k []) by (rewrite (gs_zl s G); exact Hk). cbn [bind].
      assert (EQ : q = Z.to_nat (p_Ns p)) by (specialize (Hwh eq_refl); lia).
      destruct (compress_whole_ok (Z.to_nat (p_Ns p)) (o_h c) (o_f c) (o_ext c k ik) (chunk_cols fr) (nth k (os_zl s) [])) as (z & Ez & Lz).
      { lia. } { rewrite Hh. lia. } { destruct (gs_z1 s G k) as [?|[?|?]]; [left; assumption|congruence|right; lia]. }
      replace (2 * Z.to_nat (p_Ns p))%nat with (Z.to_nat (p_N p)) in Ez by lia. rewrite Ez. cbn [bind].
      unfold broadcast. rewrite Hnd, Hw. cbn [bind].
      assert (NF := nat_fill (fun _ : R => tt) (map nbrs nodes) k (chunk_to_send (snd z) (p_Ns p)) (b_buf (os_b s))).
      rewrite <- (nat_chunk (fun _ : R => tt)), map_tt, Lz in NF. unfold blank in HU. replace (Z.to_nat (p_N p)) with (2 * Z.to_nat (p_Ns p))%nat in HU by lia.
      cbn [forget bmap b_buf] in HU. rewrite NF in HU. destruct (fill_buffers (map nbrs nodes) k _ (b_buf (os_b s))) as [bufs|]; [|discriminate HU].
      cbn [rmap bind] in HU |- *. injection HU as <-. eexists. split; [reflexivity|]. split; [|reflexivity].
      constructor; cbn [os_zl os_wir os_up os_psf os_d os_dl os_b b_i b_last]; rewrite ?upd_length; try apply G.
      intros j. rewrite nth_upd_cases by (rewrite (gs_zl s G); exact Hk). destruct (Nat.eqb k j); [right; right; lia|apply (gs_z1 s G)].
    - destruct (Hfew eq_refl) as [Heff HLN]. rewrite Heff.
      rewrite (get_lt (os_up s) k 0) by (rewrite (gs_up s G); exact Hk). cbn [bind]. rewrite (get_lt (os_wir s) k []) by (rewrite (gs_wir s G); exact Hk). cbn [bind].
      destruct (cs_ext _ _ _ _ _ Hc k ik Hk) as [LE FE]. destruct (gs_w1 s G k Hk) as [LW FW].
      set (due := o_every c <=? _).
      assert (W : exists wir', (if due && negb (o_nofuse c && Nat.eqb (length (nth k y [])) 1) then dist_fct_approx (o_h c) (o_f c) (Z.to_nat (p_Ns p)) (o_ext c k ik) else Ok (nth k (os_wir s) [])) = Ok wir' /\
                 length wir' = nS k /\ Forall (fun w => length w = (2 * (2 * q) - 1)%nat) wir').
      { destruct (_ && _)%bool; [|eauto]. destruct (dist_ok q (o_h c) (o_f c) (Z.to_nat (p_Ns p)) (o_ext c k ik) Hq Hh Hf FE) as (r & Er & Lr & Hr).
        exists r. split; [exact Er|]. split; [unfold nS; congruence|]. apply Forall_forall. intros w Hin. apply In_nth with (d := []) in Hin. destruct Hin as (ch & Hch & <-).
        destruct (Hr ch ltac:(lia)) as (g & _ & L & _). exact L. }
      destruct W as (wir' & Ew & LW' & FW'). rewrite Ew. cbn [bind]. rewrite (get_lt (b_last (os_b s)) k 0) by (rewrite (gs_last s G); exact Hk). cbn [bind].
      rewrite (C19_compression (2 * Z.to_nat (p_N p) - 1) wir' (chunk_cols fr) (Z.to_nat (p_L p))); [|lia|lia|rewrite EN, Nat2Z.id; exact FW'|eapply Forall_impl; [|exact FC]; intros; cbv beta in *; lia].
      cbn [bind]. set (z := map _ (seq 0 (Z.to_nat (p_L p)))).
      assert (Lz : length z = Z.to_nat (p_L p)) by (unfold z; rewrite map_length, seq_length; reflexivity).
      unfold broadcast. rewrite Hnd, Hw, Heff. cbn [bind]. rewrite (get_lt (b_last (os_b s)) k 0) by (rewrite (gs_last s G); exact Hk). cbn [bind].
      rewrite Heff in HU. cbn [forget bmap b_last b_buf] in HU. rewrite (get_lt (b_last (os_b s)) k 0) in HU by (rewrite (gs_last s G); exact Hk). cbn [bind] in HU.
      assert (NF := nat_fill (fun _ : R => tt) (map nbrs nodes) k (chunk_to_send z (- p_L p)) (b_buf (os_b s))).
      rewrite <- (nat_chunk (fun _ : R => tt)), map_tt, Lz in NF. unfold blank in HU.
      rewrite NF in HU. destruct (fill_buffers (map nbrs nodes) k _ (b_buf (os_b s))) as [bufs|]; [|discriminate HU].
      cbn [rmap bind] in HU |- *. injection HU as <-. eexists. split; [reflexivity|]. split; [|reflexivity].
      constructor; cbn [os_zl os_wir os_up os_psf os_d os_dl os_b b_i b_last]; rewrite ?upd_length; try apply G.
      + destruct due; rewrite ?upd_length; apply G.
      + intros j. right. left. exact Hw.
      + intros j Hj. rewrite nth_upd_cases by (rewrite (gs_wir s G); exact Hk). destruct (Nat.eqb_spec k j) as [<-|_]; [auto|apply (gs_w1 s G j Hj)].
  Qed.

  (** updates *)
  Lemma update_ok t k s ub : good_state s -> (k < length y)%nat ->
    0 < frame_end c k t <= Z.of_nat T ->
    (forall b', read_buffers 0%R (map nbrs nodes) (p_N p) (p_Ns p) k (os_b s) = Ok b' -> Forall (fun col => Z.of_nat (length col) = p_N p) (nth k (b_z b') [])) ->
    read_buffers tt (map nbrs nodes) (p_N p) (p_Ns p) k (forget (os_b s)) = Ok ub ->
    exists s', online_update c y t k s = Ok s' /\ good_state s' /\ forget (os_b s') = ub.
  Proof.
    intros G Hk He HZ HU. destruct Hgp as (HN & HNs & HL). destruct (cs_frame _ _ _ _ _ Hc) as [Hq EN]. destruct (cs_windows _ _ _ _ _ Hc) as (Hh & Hf & Hwl). fold p in EN.
    pose proof (cs_nodes _ _ _ _ _ Hc) as LN.
    unfold online_update. fold p nodes. set (nd := nth k nodes (mkNode 1 [] [])) in *.
    assert (Hnd : get nodes k = Ok nd) by (apply get_lt; unfold nodes; lia).
    rewrite Hnd. cbn [bind]. rewrite (get_lt y k []) by exact Hk. cbn [bind].
    rewrite (get_lt (b_i (os_b s)) k 0%nat) by (rewrite (gs_i s G); exact Hk). cbn [bind].
    unfold forget in HU. rewrite (nat_read (fun _ : R => tt) 0%R tt eq_refl) in HU.
    destruct (read_buffers 0%R (map nbrs nodes) (p_N p) (p_Ns p) k (os_b s)) as [b'|] eqn:Eb; [|discriminate HU]. cbn [rmap] in HU. injection HU as <-. cbn [bind].
    specialize (HZ b' eq_refl).
    (* shape of the new buffer state *)
    assert (SB : length (nth k (b_z b') []) = nN k /\ (k < length (b_z b'))%nat /\ length (b_i b') = length y /\ length (b_last b') = length y /\ exists row, length row = nN k /\ List.last (b_log b') (k, []) = (k, row)).
    { unfold read_buffers in Eb. rewrite (get_lt (map nbrs nodes) k []) in Eb by (rewrite map_length; unfold nodes; lia). cbn [bind] in Eb.
      assert (Enk : nth k (map nbrs nodes) [] = nbrs nd) by (apply nth_error_nth; rewrite nth_error_map; apply get_ok in Hnd; rewrite Hnd; reflexivity). rewrite Enk in Eb.
      apply bind_ok in Eb. destruct Eb as (bk & Hbk & Eb). apply bind_ok in Eb. destruct Eb as (zk & Hzk & Eb). apply bind_ok in Eb. destruct Eb as (ik & Hik & Eb).
      apply bind_ok in Eb. destruct Eb as (cols & Hcols & Eb). injection Eb as <-. cbn [b_z b_i b_last b_log]. apply mapM_length in Hcols. rewrite seq_length in Hcols.
      destruct (get_nth _ _ _ [] Hzk) as [_ Lz]. rewrite nth_upd_eq by exact Lz. rewrite map_length, !upd_length. split; [exact Hcols|]. split; [exact Lz|].
      split; [apply G|]. split; [apply G|]. exists (map snd cols). rewrite map_length. split; [exact Hcols|]. apply last_last. }
    destruct SB as (SZ & LZ & SI & SL & row & Lrow & Erow).
    destruct (signals k Hk) as [HS0 HS]. rewrite Forall_forall in HS.
    set (e := frame_end c k t) in *.
    assert (FE : e = t / period nd - (if p_whole p then p_N p - p_Ns p else 0)) by reflexivity.
    destruct (mapM_all (fun col => local_chunk_for_update 0%R col t (period nd) (p_whole p) (p_N p) (p_Ns p)) (fun r => Z.of_nat (length (fst (fst r))) = p_N p /\ snd (fst r) = Z.max (e - p_N p) 0 /\ snd r = e) (nth k y [])) as (fr & Efr & Pfr).
    { intros col Hcol. destruct (C18_update_chunk R 0%R col t (period nd) (p_whole p) (p_N p) (p_Ns p)) as (ch & E & L & _); [lia|rewrite <- FE, (HS col Hcol); lia|]. cbv zeta in E. rewrite <- FE in E.
      eexists. split; [exact E|]. cbn [fst snd]. auto. }
    rewrite Efr. cbn [bind].
    assert (Lfr : length fr = nS k) by (apply mapM_length in Efr; exact Efr).
    destruct fr as [|r0 fr']; [unfold nS in Lfr; destruct (nth k y []); [now contradiction HS0|discriminate Lfr]|].
    set (fr := r0 :: fr') in *. cbn [bind fst snd].
    assert (R0 : snd (fst r0) = Z.max (e - p_N p) 0 /\ snd r0 = e) by (inversion Pfr as [|? ? [_ X] _]; subst; exact X). rewrite (proj1 R0), (proj2 R0).
    rewrite (get_lt (b_z b') k []) by exact LZ. cbn [bind].
    assert (FC : Forall (fun col => Z.of_nat (length col) = p_N p) (chunk_cols fr)) by (unfold chunk_cols; rewrite Forall_map; eapply Forall_impl; [|exact Pfr]; intros a Ha; apply Ha).
    assert (LC : length (chunk_cols fr) = nS k) by (unfold chunk_cols; rewrite map_length; exact Lfr).
    set (cols := chunk_cols fr ++ nth k (b_z b') []).
    assert (Lcols : length cols = (nS k + nN k)%nat) by (unfold cols; rewrite app_length, LC, SZ; reflexivity).
    assert (EX : existsb (fun col => negb (Z.of_nat (length col) =? p_N p)) cols = false).
    { destruct (existsb _ _) eqn:X; [|reflexivity]. apply existsb_exists in X. destruct X as (col & Hcol & X).
      assert (FA : Forall (fun col => Z.of_nat (length col) = p_N p) cols) by (apply Forall_app; split; assumption).
      rewrite Forall_forall in FA. specialize (FA col Hcol). lia. }
    rewrite EX. rewrite (get_lt (os_psf s) k []) by (rewrite (gs_psf s G); exact Hk). cbn [bind].
    assert (Lp := gs_p1 s G k Hk).
    assert (NC : (o_comp c && Nat.eqb k 0 && Nat.eqb (length (nbrs nd)) 0)%bool = false).
    { destruct (o_comp c) eqn:Co; [|reflexivity]. destruct (cs_comp _ _ _ _ _ Hc Co k Hk) as [NE _]. fold nodes nd in NE.
      destruct (nbrs nd); [now contradiction NE|]. cbn. apply andb_false_r. }
    rewrite NC, Erow. cbn [snd].
    destruct (extra_ok (length (nth k (os_psf s) [])) (length (nth k y [])) (map (fun f => Some (IZR f)) row)) as (x & Ex & Lx).
    { rewrite map_length, Lrow, Lp. unfold nS. lia. }
    rewrite Ex. cbn [bind].
    set (psf1 := if (o_comp c && o_fsd c)%bool then vadd (nth k (os_psf s) []) x else nth k (os_psf s) []).
    assert (L1 : length psf1 = (nS k + nN k)%nat) by (unfold psf1; destruct (o_comp c && o_fsd c)%bool; [rewrite OutFacts.vadd_length, Lx, Lp; lia|exact Lp]).
    assert (P2 : exists psf2, (if o_comp c then move_shifts (length (nth k y [])) (IZR (p_Ns p)) (o_est c k (nth k (b_i (os_b s)) 0%nat)) psf1 else Ok psf1) = Ok psf2 /\ length psf2 = (nS k + nN k)%nat).
    { destruct (o_comp c) eqn:Co; [|eauto]. destruct (cs_comp _ _ _ _ _ Hc Co k Hk) as [_ LE]. fold nodes nd in LE.
      destruct (move_ok (length (nth k y [])) (IZR (p_Ns p)) (o_est c k (nth k (b_i (os_b s)) 0%nat)) psf1) as (v & Ev & Lv); [rewrite LE, L1; unfold nS, nN; fold nd; lia|].
      exists v. split; [exact Ev|lia]. }
    destruct P2 as (psf2 & E2 & L2). rewrite E2. cbn [bind].
    rewrite (get_lt (os_d s) k []) by (rewrite (gs_d s G); exact Hk). cbn [bind].
    unfold estimate. fold p. rewrite Hwl.
    rewrite (proj1 (cs_int _ _ _ _ _ Hc k _ Hk)). fold nodes nd. rewrite Lcols. fold (nS k) (nN k). rewrite Nat.eqb_refl. cbn [negb].
    assert (SPL : forall cs, length (spectra (Z.to_nat (p_N p)) (Z.to_nat (p_Ns p)) (o_h c) cs) = (q + 1)%nat).
    { intros cs. rewrite spectra_length, EN, Nat2Z.id, OutFacts.div2_double. reflexivity. }
    match goal with |- context [wola_estimate _ _ (o_int c k _) ?yh] => assert (LY : length yh = (q + 1)%nat) end.
    { destruct (o_comp c); [|apply SPL]. unfold apply_shifts. rewrite map_length, combine_length, seq_length, SPL. lia. }
    match goal with |- context [wola_estimate ?a ?f (o_int c k ?i) ?yh _ _ ?d] => destruct (estimate_ok q a f (o_int c k i) yh e d Hq Hf LY) as (d' & Ed & Ld) end.
    { rewrite (gs_d1 s G k Hk). exact He. }
    rewrite <- EN in Ed. rewrite Ed. cbn [bind].
    rewrite (get_lt (os_dl s) k []) by (rewrite (gs_dl s G); exact Hk). cbn [bind].
    rewrite (proj1 (cs_loc _ _ _ _ _ Hc k _ Hk)). fold (nS k). rewrite Nat.eqb_refl. cbn [negb].
    match goal with |- context [wola_estimate ?a ?f (o_loc c k ?i) ?yh _ _ ?d] => destruct (estimate_ok q a f (o_loc c k i) yh e d Hq Hf) as (dl' & Edl & Ldl) end.
    { rewrite map_length. apply SPL. } { rewrite (gs_dl1 s G k Hk). exact He. }
    rewrite <- EN in Edl. rewrite Edl. cbn [bind].
    eexists. split; [reflexivity|]. split; [|reflexivity].
    constructor; cbn [os_zl os_wir os_up os_psf os_d os_dl os_b b_i b_last]; rewrite ?upd_length; try apply G; try assumption.
    - intros j Hj. rewrite nth_upd_cases by (rewrite (gs_psf s G); exact Hk). destruct (Nat.eqb_spec k j) as [<-|_]; [exact L2|apply (gs_p1 s G j Hj)].
    - intros j Hj. rewrite nth_upd_cases by (rewrite (gs_d s G); exact Hk). destruct (Nat.eqb_spec k j) as [<-|_]; [rewrite Ld; apply (gs_d1 s G k Hk)|apply (gs_d1 s G j Hj)].
    - intros j Hj. rewrite nth_upd_cases by (rewrite (gs_dl s G); exact Hk). destruct (Nat.eqb_spec k j) as [<-|_]; [rewrite Ldl; apply (gs_dl1 s G k Hk)|apply (gs_dl1 s G j Hj)].
  Qed.

  Lemma init_good ref : good_state (online_init 0%R c nsens ref T).
  Proof.
    pose proof (cs_nodes _ _ _ _ _ Hc) as LN. pose proof (cs_sensors _ _ _ _ _ Hc) as ES. destruct (cs_frame _ _ _ _ _ Hc) as [Hq EN].
    assert (Lns : length nsens = length y) by (rewrite ES; apply map_length).
    constructor; unfold online_init; cbn [os_zl os_wir os_up os_psf os_d os_dl os_b b_i b_last init_state]; rewrite ?map_length, ?combine_length; try lia.
    - intros k. left. clear. revert k. induction (o_nodes c) as [|a l IH]; intros [|k]; cbn; auto.
    - intros k Hk. destruct (initial_taps c nsens ref T k (2 * q) EN ltac:(lia) ltac:(lia)) as (I1 & I2 & _). cbn [os_wir online_init] in I1, I2. split; [|exact I2].
      rewrite I1, ES. unfold nS. rewrite (nth_indep _ 0%nat (@length (list R) [])) by (rewrite map_length; exact Hk). apply (map_nth (@length (list R)) y [] k).
    - intros k Hk. rewrite (nth_map_lt _ _ k (0%nat, mkNode 1 [] [])) by (rewrite combine_length; lia).
      rewrite combine_nth by lia. cbn [fst snd]. rewrite repeat_length. unfold nS, nN. f_equal. rewrite ES.
      apply (nth_map_lt (@length (list R)) y k []). exact Hk.
    - intros k Hk. rewrite (nth_map_lt _ _ k (mkNode 1 [] [])) by lia. apply repeat_length.
    - intros k Hk. rewrite (nth_map_lt _ _ k (mkNode 1 [] [])) by lia. apply repeat_length.
  Qed.
End Events.
