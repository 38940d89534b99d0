(** Complete runs of topology-independent DANSE in whole chunks do not fail as long as no
    coefficient of the in-network sum is zero. *)
From Verif Require Import Base BaseFacts Sched SchedSpec Buffers BufFacts Chunk ChunkSpec ChunkFacts ChunkProps Level Cx CxFacts Wola WolaFacts Dist Online OutFacts OutFacts2 CompleteFacts Filt Scm Ext Full FullFacts FullFacts2 FullFacts4 Batch InNet InNetSpec TiRun TiSpec TiFacts2 TiFacts3 TiFacts4 TiFacts5.
From Coq Require Import Reals.
Local Open Scope nat_scope.

Section Runs.
  Variables (c : tcfg) (y : list (list (list R))) (q T slots : nat).
  Hypothesis HS : settings c y q T slots.
  Let p := o_p (tc_o c).

  Lemma sizes : 0 < q /\ p_N p = Z.of_nat (2 * q) /\ p_Ns p = Z.of_nat q /\ p_whole p = true /\ tc_N c = 2 * q /\ tc_Ns c = q /\ tc_bins c = q + 1.
  Proof.
    destruct (se_frame _ _ _ _ _ HS) as (A & B & C & D). fold p in B, C, D. assert (N1 : tc_N c = 2 * q) by (unfold tc_N; fold p; lia). assert (N2 : tc_Ns c = q) by (unfold tc_Ns; fold p; lia).
    unfold tc_bins. rewrite N1, OutFacts.div2_double. auto 10.
  Qed.
  Lemma signals_of k yk : nth_error y k = Some yk -> yk <> [] /\ forall col, In col yk -> length col = T.
  Proof. intros H. apply nth_error_In in H. pose proof (se_signals _ _ _ _ _ HS) as F. rewrite Forall_forall in F. destruct (F yk H) as [A B]. rewrite Forall_forall in B. auto. Qed.
  Lemma node_of k yk : nth_error y k = Some yk -> exists sn, nth_error (o_nodes (tc_o c)) k = Some sn.
  Proof. intros H. destruct (nth_error (o_nodes (tc_o c)) k) as [sn|] eqn:E; [eauto|]. apply nth_error_None in E. rewrite (se_nodes _ _ _ _ _ HS) in E. apply nth_error_None in E. congruence. Qed.

  Lemma fuse_ok t k yk s : nth_error y k = Some yk -> ready c y T slots k (id_node s) -> (id_buf s = [] \/ length (id_buf s) = 2 * q) -> fn_i (tn_f (id_node s)) < slots ->
    (forall sn, nth_error (o_nodes (tc_o c)) k = Some sn -> (0 <= t / period sn <= Z.of_nat T)%Z) ->
    exists s', ideal_fuse c y t k s = Ok s' /\ id_node s' = id_node s /\ length (id_buf s') = 2 * q.
  Proof.
    intros Hy HR Hb Hi Ht. destruct sizes as (Hq & EN & ENs & Hwh & N1 & N2 & N3). destruct (node_of k yk Hy) as (sn & Hsn). destruct (signals_of k yk Hy) as [_ HC].
    destruct (se_windows _ _ _ _ _ HS) as (_ & Hh & Hf). destruct (re_x _ _ _ _ _ _ HR) as (X1 & X2 & X3).
    unfold ideal_fuse, ti_fusion, get at 1 2. rewrite Hsn, Hy. cbn [bind]. fold p.
    destruct (mapM_all (fun col => local_chunk_for_broadcast 0%R col t (period sn) (p_N p)) (fun r => Z.of_nat (length (fst (fst r))) = p_N p) yk) as (fr & Efr & Pfr).
    { intros col Hcol. destruct (C18_broadcast_chunk R 0%R col t (period sn) (p_N p)) as (ch & E & L & _); [lia|rewrite (HC col Hcol); now apply Ht|]. eexists. split; [exact E|exact L]. }
    rewrite Efr. cbn [bind]. cbv zeta.
    assert (EX : existsb (fun col => (Z.of_nat (length col) <? p_N p)%Z) (chunk_cols fr) = false).
    { apply not_true_is_false. intros X. apply existsb_exists in X. destruct X as (col & Hcol & X). unfold chunk_cols in Hcol. apply in_map_iff in Hcol. destruct Hcol as (r & <- & Hr).
      rewrite Forall_forall in Pfr. specialize (Pfr r Hr). cbv beta in Pfr. lia. }
    rewrite EX, Hwh. unfold get. rewrite X2. destruct (nth_error (x_ext (tn_x (id_node s))) (fn_i (tn_f (id_node s)))) as [w|] eqn:Ew; [|apply nth_error_None in Ew; lia]. cbn [bind].
    assert (NZ : never_zero (tc_bins c) (length yk) w).
    { rewrite Forall_forall in X3. apply nth_error_In in Ew. specialize (X3 w Ew). now rewrite (nth_error_nth y k [] Hy) in X3. }
    assert (FV : exists v, fusion_vector (tc_bins c) (length yk) (e_start (fn_danse (tn_f (id_node s)))) w = Ok v).
    { unfold fusion_vector. rewrite (proj2 (zero_bin_false _ _ _) NZ). destruct (e_start _); eauto. }
    destruct FV as (v & ->). cbn [bind]. rewrite N1, N2.
    destruct (compress_whole_ok q (o_h (tc_o c)) (o_f (tc_o c)) v (chunk_cols fr) (id_buf s) Hq Hh Hb) as (z & Ez & Lz). rewrite Ez. cbn [bind fst snd].
    eexists. split; [reflexivity|]. cbn [id_node id_buf]. auto.
  Qed.

  Lemma normalise_ok k t byp m i n last : nth_error (e_w (fn_danse n)) (S i) <> None -> Forall (never_zero (tc_bins c) m) (e_w (fn_danse n)) ->
    exists r, normalise c k t byp m i n last = Ok r /\ fn_i (fst r) = fn_i n /\ fn_local (fst r) = fn_local n /\ fn_centr (fst r) = fn_centr n /\ fn_ssbc (fst r) = fn_ssbc n /\
      length (e_w (fn_danse (fst r))) = length (e_w (fn_danse n)) /\ e_dim (fn_danse (fst r)) = e_dim (fn_danse n) /\ Forall (never_zero (tc_bins c) m) (e_w (fn_danse (fst r))).
  Proof.
    intros Hn HF. unfold normalise. destruct (_ && _); [|exists (n, last); cbn [fst]; auto 10].
    unfold get. destruct (nth_error (e_w (fn_danse n)) (S i)) as [w|] eqn:E; [|congruence]. cbn [bind].
    assert (NZ : never_zero (tc_bins c) m w) by (rewrite Forall_forall in HF; apply HF; now apply nth_error_In in E).
    rewrite (proj2 (zero_bin_false _ _ _) NZ). eexists. split; [reflexivity|]. cbn [fst fn_i fn_local fn_centr fn_ssbc fn_danse e_w e_dim].
    rewrite (upd_length (S i)). repeat (split; [reflexivity|]). apply (Forall_upd (never_zero (tc_bins c) m) (S i)); [|exact HF].
    intros f Hf. rewrite (div_self (tc_bins c) m w f NZ Hf). intros X. injection X. intros. apply R1_neq_R0. assumption.
  Qed.

  Lemma update_ok t k byp em yk nd : nth_error y k = Some yk -> ready c y T slots k nd -> length em = 2 * q -> S (fn_i (tn_f nd)) < slots ->
    (forall sn, nth_error (o_nodes (tc_o c)) k = Some sn -> (p_N p - p_Ns p < t / period sn <= Z.of_nat T)%Z) ->
    exists nd', ti_update c y t k byp em nd = Ok nd' /\ ready c y T slots k nd' /\ fn_i (tn_f nd') = S (fn_i (tn_f nd)).
  Proof.
    intros Hy HR Lem Hi Ht. destruct sizes as (Hq & EN & ENs & Hwh & N1 & N2 & N3). destruct (node_of k yk Hy) as (sn & Hsn). destruct (signals_of k yk Hy) as [HC0 HC]. specialize (Ht sn Hsn).
    destruct (se_windows _ _ _ _ _ HS) as (Hwl & Hh & Hf). destruct (re_x _ _ _ _ _ _ HR) as (X1 & X2 & X3). destruct (re_w _ _ _ _ _ _ HR) as (W1 & W2). assert (W3 := re_dim _ _ _ _ _ _ HR).
    rewrite (nth_error_nth y k [] Hy) in X3, W2, W3. destruct (re_d _ _ _ _ _ _ HR) as (D1 & D2).
    unfold ti_update, get at 1 2. rewrite Hsn, Hy. cbn [bind]. fold p.
    set (e := (t / period sn - (p_N p - p_Ns p))%Z). assert (He : (0 < e <= Z.of_nat T)%Z) by (unfold e; lia).
    destruct (mapM_all (fun col => local_chunk_for_update 0%R col t (period sn) (p_whole p) (p_N p) (p_Ns p)) (fun r => Z.of_nat (length (fst (fst r))) = p_N p /\ snd (fst r) = Z.max (e - p_N p) 0 /\ snd r = e) yk) as (fr & Efr & Pfr).
    { intros col Hcol. destruct (C18_update_chunk R 0%R col t (period sn) (p_whole p) (p_N p) (p_Ns p)) as (ch & E & L & _); [lia|rewrite (HC col Hcol), Hwh; fold e; lia|].
      cbv zeta in E. rewrite Hwh in E |- *. fold e in E. eexists. split; [exact E|]. cbn [fst snd]. auto. }
    rewrite Efr. cbn [bind]. assert (Lfr := mapM_length _ _ _ Efr).
    destruct fr as [|r0 fr']; [destruct yk; [now contradiction HC0|discriminate Lfr]|]. set (fr := r0 :: fr') in *. cbn [bind fst snd].
    assert (R0 : snd (fst r0) = Z.max (e - p_N p) 0 /\ snd r0 = e) by (inversion Pfr as [|? ? [_ X] _]; subst; exact X). rewrite (proj1 R0), (proj2 R0). cbv zeta.
    assert (LC : length (chunk_cols fr) = length yk) by (unfold chunk_cols; rewrite map_length; exact Lfr).
    assert (EX : existsb (fun col => negb (Z.of_nat (length col) =? p_N p)%Z) (chunk_cols fr ++ [em]) = false).
    { apply not_true_is_false. intros X. apply existsb_exists in X. destruct X as (col & Hcol & X). apply in_app_or in Hcol. destruct Hcol as [Hcol|[<-|[]]]; [|lia].
      unfold chunk_cols in Hcol. apply in_map_iff in Hcol. destruct Hcol as (r & <- & Hr). rewrite Forall_forall in Pfr. destruct (Pfr r Hr) as (L & _). lia. }
    rewrite EX.
    assert (Hk : k < length y) by (apply nth_error_Some; congruence).
    destruct (se_vad _ _ _ _ _ HS k Hk) as (vk & Ev & Lv). unfold get at 1. rewrite Ev. cbn [bind]. unfold get at 1.
    destruct (nth_error vk (fn_i (tn_f nd))) as [v|] eqn:Evi; [|apply nth_error_None in Evi; lia]. cbn [bind].
    set (u := mkU _ _ _ _ _ _ _ _ _ _).
    assert (RM : roomy slots (tn_f nd)) by (split; [exact W1|apply (re_others _ _ _ _ _ _ HR)]).
    destruct (@filt_step_ok obs tens coefs outer (avg (ac_beta (tc_a c) k)) (ac_valid (tc_a c)) (ac_solve (tc_a c)) (ac_p (tc_a c)) slots (tn_f nd) u RM Hi) as (n1 & En1 & (Q1 & Q2 & Q3 & Q4)).
    rewrite En1. cbn [bind].
    assert (I1 : fn_i n1 = S (fn_i (tn_f nd))). { destruct (step_keeps (tn_f nd) n1 u no_coefs En1) as (K1 & _). exact K1. }
    destruct (step_P (never_zero (tc_bins c) (length yk)) _ _ _ En1) as (P1 & P2); [rewrite W3; intros; apply (se_solve _ _ _ _ _ HS)|exact W2|].
    destruct (normalise_ok k t byp (length yk) (fn_i (tn_f nd)) n1 (tn_norm nd)) as (r & Er & J1 & J2 & J3 & J4 & J5 & J6 & J7); [apply nth_error_Some; lia|exact P1|].
    rewrite Er. cbn [bind].
    destruct (nth_error (e_w (fn_danse (fst r))) (S (fn_i (tn_f nd)))) as [w|] eqn:Ew; [|apply nth_error_None in Ew; lia]. unfold get at 1. rewrite Ew. cbn [bind].
    destruct (se_ext _ _ _ _ _ HS k) as (Y1 & Y2 & Y3).
    assert (EXT : exists x, ext_update (ac_x (tc_a c) k) w (Some (IZR t)) (tn_x nd) = Ok x /\ x_i x = S (fn_i (tn_f nd)) /\ length (x_ext x) = slots /\ Forall (never_zero (tc_bins c) (length yk)) (x_ext x)).
    { unfold ext_update. rewrite Y1, Y2, Y3, X2. unfold get. destruct (nth_error (x_ext (tn_x nd)) (fn_i (tn_f nd))) as [old|] eqn:Eo; [|apply nth_error_None in Eo; lia]. cbn [bind].
      unfold put. destruct (Nat.ltb_spec (S (fn_i (tn_f nd))) (length (x_ext (tn_x nd)))) as [L|]; [|lia]. cbn [bind]. eexists. split; [reflexivity|]. cbn [x_i x_ext]. split; [reflexivity|].
      split; [rewrite (upd_length (S (fn_i (tn_f nd)))); exact X1|]. apply (Forall_upd (never_zero (tc_bins c) (length yk)) (S (fn_i (tn_f nd)))); [|exact X3].
      rewrite Forall_forall in J7. apply J7. now apply nth_error_In in Ew. }
    destruct EXT as (x & -> & Z1 & Z2 & Z3). cbn [bind]. unfold estimate at 1. rewrite Hwl.
    assert (TL : forall m (w0 : coefs), length (to_list m (tc_bins c) w0) = m) by (intros; unfold to_list; now rewrite map_length, seq_length). rewrite TL, Nat.eqb_refl. cbn [negb].
    assert (SPL : forall cs, length (spectra (tc_N c) (tc_Ns c) (o_h (tc_o c)) cs) = (q + 1)%nat) by (intros cs; rewrite spectra_length, N1, OutFacts.div2_double; reflexivity).
    match goal with |- context [wola_estimate ?a ?f ?w0 ?yh _ _ ?d] => destruct (estimate_ok q a f w0 yh e d Hq Hf (SPL _)) as (d' & Ed & Ld) end; [lia|].
    rewrite <- EN in Ed. rewrite Ed. cbn [bind]. rewrite J2. destruct Q2 as (l & El & Ll). rewrite El.
    destruct (nth_error (e_w l) (S (fn_i (tn_f nd)))) as [wl|] eqn:Ewl; [|apply nth_error_None in Ewl; lia]. unfold get at 1. rewrite Ewl. cbn [bind]. unfold estimate. rewrite Hwl, TL, Nat.eqb_refl. cbn [negb].
    match goal with |- context [wola_estimate ?a ?f ?w0 ?yh _ _ ?d] => destruct (estimate_ok q a f w0 yh e d Hq Hf) as (dl' & Edl & Ldl) end; [rewrite map_length; apply SPL|lia|].
    rewrite <- EN in Edl. rewrite Edl. cbn [bind]. eexists. split; [reflexivity|]. cbn [tn_f]. split; [|congruence].
    constructor; cbn [tn_f tn_x tn_d tn_dl]; rewrite ?(nth_error_nth y k [] Hy).
    - split; [congruence|exact J7].
    - congruence.
    - rewrite J2, J3, J4. split; [exists l; auto|auto].
    - split; [exact Z2|]. split; [congruence|exact Z3].
    - split; congruence.
  Qed.

  Definition fine (i : nat) (k : nat) (s : inode) : Prop :=
    ready c y T slots k (id_node s) /\ fn_i (tn_f (id_node s)) <= i /\ (id_buf s = [] \/ length (id_buf s) = 2 * q).
  Lemma each_fine {A} (f : nat -> A -> res A) (P Q : nat -> A -> Prop) l : (forall k a, nth_error l k = Some a -> P k a) -> (forall k a, nth_error l k = Some a -> P k a -> exists b, f k a = Ok b /\ Q k b) ->
    exists l', each f l = Ok l' /\ length l' = length l /\ forall k a, nth_error l' k = Some a -> Q k a.
  Proof.
    intros HP HF. destruct (each f l) as [l'|x] eqn:E.
    - destruct (each_ok _ _ _ E) as (L & H). exists l'. split; [reflexivity|]. split; [exact L|]. intros k b Hb.
      destruct (nth_error l k) as [a|] eqn:Ea; [|apply nth_error_None in Ea; assert (k < length l') by (apply nth_error_Some; congruence); lia].
      destruct (H k a Ea) as (b' & B1 & B2). rewrite Hb in B2. injection B2 as <-. destruct (HF k a Ea (HP k a Ea)) as (b' & B3 & B4). rewrite B1 in B3. now injection B3 as <-.
    - destruct (each_err _ _ _ E) as (k & a & Ha & Ea). destruct (HF k a Ha (HP k a Ha)) as (b & Eb & _). congruence.
  Qed.

  Lemma ideal_ok sched : forall i l, timely c T sched -> length l = length y -> (forall k s, nth_error l k = Some s -> fine i k s) -> i + length (filter exchanges sched) < slots ->
    exists l', ideal_run c y sched l = Ok l'.
  Proof.
    induction sched as [|n sched IH]; intros i l HT HL HF HN; [exists l; reflexivity|]. unfold ideal_run. cbn [foldM]. fold (ideal_run c y sched).
    assert (HT' : timely c T sched) by (intros j k sn Hj; apply HT; now right). cbn [filter] in HN. destruct (exchanges n) eqn:Ex; [|cbn [bind]; now apply (IH i l)]. cbn [length] in HN.
    assert (HY : forall k (s : inode) l0, length l0 = length y -> nth_error l0 k = Some s -> exists yk, nth_error y k = Some yk).
    { intros k s l0 L0 Hk. destruct (nth_error y k) as [yk|] eqn:E; [eauto|]. apply nth_error_None in E. assert (k < length l0) by (apply nth_error_Some; congruence). lia. }
    assert (I : exists l', ideal_instant c y (in_t n) (updates_of n) l = Ok l' /\ length l' = length y /\ forall k s, nth_error l' k = Some s -> fine (S i) k s).
    { unfold ideal_instant.
      destruct (each_fine (ideal_fuse c y (in_t n)) (fine i) (fine i) l HF) as (l1 & E1 & L1 & F1).
      { intros k s Hk (A & B & C). destruct (HY k s l HL Hk) as (yk & Hy).
        destruct (fuse_ok (in_t n) k yk s Hy A C) as (s' & E & En & Lb); [lia|intros sn Hsn; now apply (HT n k sn (or_introl eq_refl) Ex Hsn)|].
        exists s'. split; [exact E|]. unfold fine. rewrite En. auto. }
      rewrite E1. cbn [bind].
      destruct (each_fine (ideal_update c y (in_t n) (updates_of n) l1) (fine i) (fine (S i)) l1 F1) as (l2 & E2 & L2 & F2); [|exists l2; split; [exact E2|]; split; [congruence|exact F2]].
      intros k s Hk (A & B & C). destruct (HY k s l1 (eq_trans L1 HL) Hk) as (yk & Hy). unfold ideal_update. destruct (updates_of n k) as [b|] eqn:Eu; [|exists s; split; [reflexivity|]; split; [exact A|]; split; [lia|exact C]].
      destruct sizes as (Hq & EN & ENs & Hwh & N1 & N2 & N3).
      destruct (update_ok (in_t n) k b (sum_of_others (tc_N c) l1 k) yk (id_node s) Hy A) as (nd' & E & Rn & In'); [unfold sum_of_others; rewrite map_length, seq_length; exact N1|lia| |].
      { intros sn Hsn. destruct (HT n k sn (or_introl eq_refl) Ex Hsn) as (T1 & T2). split; [apply T2; congruence|apply T1]. }
      rewrite E. cbn [bind]. eexists. split; [reflexivity|]. unfold fine. cbn [id_node id_buf]. split; [exact Rn|]. split; [rewrite In'; lia|exact C]. }
    destruct I as (l' & -> & L' & F'). cbn [bind]. apply (IH (S i) l'); auto. lia.
  Qed.
End Runs.

Lemma ti_completes n c y trees sched q T slots nodes :
  settings c y q T slots -> timely c T sched -> regular n trees 0 sched -> length nodes = n -> n = length y -> 0 < n ->
  (forall k nd, nth_error nodes k = Some nd -> ready c y T slots k nd /\ fn_i (tn_f nd) = 0) -> length (filter exchanges sched) < slots ->
  exists s, ti_full_run c y trees sched (ti_start c nodes) = Ok s.
Proof.
  intros HS HT HR Ln Ly Hn Hready Hsl. destruct (sizes c y q T slots HS) as (Hq & EN & ENs & Hwh & _).
  destruct (ideal_ok c y q T slots HS sched 0 (ideal_start c nodes) HT) as (l & El).
  - unfold ideal_start. rewrite map_length. congruence.
  - intros k s Hk. unfold ideal_start in Hk. rewrite nth_error_map in Hk. destruct (nth_error nodes k) as [nd|] eqn:E; [|discriminate]. cbn in Hk. injection Hk as <-.
    destruct (Hready k nd E) as (A & B). unfold fine. cbn [id_node id_buf]. split; [exact A|]. split; [lia|now left].
  - exact Hsl.
  - assert (W : within_signals c y sched).
    { intros i k sn yk col Hi Hx Hsn Hy Hcol. destruct (HT i k sn Hi Hx Hsn) as (T1 & _). pose proof (se_signals _ _ _ _ _ HS) as F. rewrite Forall_forall in F.
      destruct (F yk (nth_error_In _ _ Hy)) as (_ & F2). rewrite Forall_forall in F2. rewrite (F2 col Hcol). exact T1. }
    pose proof (run_refines n c y trees sched ltac:(lia) (or_introl Hwh) 0 (ti_start c nodes) W HR Hn) as RR.
    rewrite (start_view c nodes), El in RR. destruct RR as (s & E & _); [subst n; apply start_shaped|reflexivity|lia|]. eauto.
Qed.

(** ** Outcome of runs *)
Lemma run_is_ideal c y trees sched nodes :
  (0 < p_Ns (o_p (tc_o c)) < p_N (o_p (tc_o c)))%Z -> enough c -> within_signals c y sched ->
  regular (length nodes) trees 0 sched -> nodes <> [] ->
  match ideal_run c y sched (ideal_start c nodes) with
  | Ok l => exists s, ti_full_run c y trees sched (ti_start c nodes) = Ok s /\ view s = l
  | Err _ => exists e, ti_full_run c y trees sched (ti_start c nodes) = Err e
  end.
Proof.
  intros HN HE HW HR Hn.
  pose proof (run_refines (length nodes) c y trees sched HN HE 0 (ti_start c nodes) HW HR ltac:(destruct nodes; [congruence|cbn; lia]) (start_shaped c nodes) eq_refl ltac:(lia)) as RR.
  rewrite start_view in RR. unfold refines in RR. destruct (ideal_run _ _ _ _); [|exact RR]. destruct RR as (s & A & _ & B & _). eauto.
Qed.
Lemma view_nodes n c s : shaped n c s -> map id_node (view s) = ts_nodes s /\ map id_buf (view s) = zpb (ts_net s).
Proof.
  intros (H1 & H2). destruct H2 as (Z1 & Z2 & _). unfold view. rewrite !map_map. cbn [id_node id_buf].
  assert (L : length (ts_nodes s) = length (zpb (ts_net s)) /\ length (zpb (ts_net s)) = length (zp (ts_net s))) by lia.
  destruct L as (L1 & L2). revert L1 L2. generalize (ts_nodes s), (zpb (ts_net s)), (zp (ts_net s)). clear. intros a. induction a as [|x a IH]; intros [|b b'] [|z z'] L1 L2; try discriminate; [auto|].
  injection L1 as L1. injection L2 as L2. destruct (IH b' z' L1 L2) as (A & B). cbn. now rewrite A, B.
Qed.
Lemma same_outcome c y trees1 trees2 sched1 sched2 nodes :
  (0 < p_Ns (o_p (tc_o c)) < p_N (o_p (tc_o c)))%Z -> enough c -> within_signals c y sched1 -> within_signals c y sched2 ->
  regular (length nodes) trees1 0 sched1 -> regular (length nodes) trees2 0 sched2 -> nodes <> [] ->
  Forall2 (fun i j => in_t i = in_t j /\ forall k, updates_of i k = updates_of j k) (filter exchanges sched1) (filter exchanges sched2) ->
  (exists s1 s2, ti_full_run c y trees1 sched1 (ti_start c nodes) = Ok s1 /\ ti_full_run c y trees2 sched2 (ti_start c nodes) = Ok s2 /\
     ts_nodes s1 = ts_nodes s2 /\ zpb (ts_net s1) = zpb (ts_net s2)) \/
  (exists e1 e2, ti_full_run c y trees1 sched1 (ti_start c nodes) = Err e1 /\ ti_full_run c y trees2 sched2 (ti_start c nodes) = Err e2).
Proof.
  intros HN HE HW1 HW2 HR1 HR2 Hn HF.
  assert (L0 : 0 < length nodes) by (destruct nodes; [congruence|cbn; lia]).
  pose proof (run_refines (length nodes) c y trees1 sched1 HN HE 0 (ti_start c nodes) HW1 HR1 L0 (start_shaped c nodes) eq_refl ltac:(lia)) as R1.
  pose proof (run_refines (length nodes) c y trees2 sched2 HN HE 0 (ti_start c nodes) HW2 HR2 L0 (start_shaped c nodes) eq_refl ltac:(lia)) as R2.
  rewrite start_view in R1, R2. rewrite (ideal_run_same c y sched1 sched2 _ HF) in R1. unfold refines in R1, R2. destruct (ideal_run c y sched2 _) as [l|].
  - left. destruct R1 as (s1 & A1 & S1 & V1 & _). destruct R2 as (s2 & A2 & S2 & V2 & _). exists s1, s2. split; [exact A1|]. split; [exact A2|].
    destruct (view_nodes _ _ _ S1) as (<- & <-). destruct (view_nodes _ _ _ S2) as (<- & <-). now rewrite V1, V2.
  - right. destruct R1 as (e1 & A1). destruct R2 as (e2 & A2). eauto.
Qed.
