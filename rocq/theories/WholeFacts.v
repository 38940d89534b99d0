From Verif Require Import Base BaseFacts Sched SchedSpec Buffers BufFacts Chunk ChunkSpec ChunkFacts ChunkProps Cx CxFacts Wola WolaFacts WolaFacts2 WolaProps Online OnlineSpec OutSpec OutFacts OutFacts2 DistSpec DistFacts2 LatestFacts2 WholeSpec.
From Coq Require Import Reals Lra.
Local Open Scope R_scope.
Add Ring cxr_whole : cx_ring.

Lemma compress_filtered q Ns h f w yq prev z : (0 < q)%nat -> (0 < Ns)%nat ->
  compress_whole_chunk (2 * q) Ns h f w yq prev = Ok z ->
  exists x, filtered q h w (length yq) (fun ch m => nth m (nth ch yq []) 0) x /\
    (silent prev -> forall j, (j < 2 * q)%nat -> nth j (snd z) 0 = nth j f 0 * x j) /\
    (Ns = q -> length h = (2 * q)%nat -> length prev = (2 * q)%nat -> ~ silent prev ->
       (forall j, (j < q)%nat -> nth j (snd z) 0 = (nth (q + j) prev 0 + nth j f 0 * x j) / (nth (q + j) h 0 * nth (q + j) h 0 + nth j h 0 * nth j h 0)) /\
       (forall j, (q <= j < 2 * q)%nat -> nth j (snd z) 0 = nth j f 0 * x j)).
Proof.
  intros Hq HNs. unfold compress_whole_chunk.
  pose proof (fused_length q Ns h w yq) as LH.
  destruct (C20_real_result q _ Hq LH) as (x' & out & E & Lx & Hx & Lo & Ro & Ho). rewrite E. cbn [bind]. cbv zeta.
  set (cur := map _ (seq 0 (2 * q))). intros H.
  assert (SN : sqrt (INR Ns) <> 0) by (apply Rgt_not_eq, sqrt_lt_R0; apply lt_0_INR; lia).
  set (x := fun j => sqrt (INR Ns) * re (nth j out czero)).
  assert (CU : forall j, (j < 2 * q)%nat -> nth j cur 0 = nth j f 0 * x j) by (intros j Hj; unfold cur, x; rewrite WolaFacts.nth_map_seq by exact Hj; ring).
  exists x. split; [|split].
  - intros bb Hbb.
    assert (E1 : dft (2 * q) (fun m => cr (x m)) bb = (cr (sqrt (INR Ns)) * dft (2 * q) (fun m => nth m out czero) bb)%cx).
    { unfold dft, x. rewrite <- csum_scale. apply csum_ext. intros m Hm.
      assert (Ei : im (nth m out czero) = 0) by (rewrite Forall_forall in Ro; apply Ro, nth_In; lia).
      rewrite cr_mul. replace (cr (re (nth m out czero))) with (nth m out czero); [ring|].
      apply cx_eq; cbn; [reflexivity|exact Ei]. }
    rewrite E1, (Ho bb Hbb), (Hx bb Hbb).
    assert (E2 : nth bb (fused_spectrum (2 * q) Ns h w yq) czero = (cr (/ sqrt (INR Ns)) * csum (length yq) (fun ch => (conj (nth bb (nth ch w []) czero) * dft (2 * q) (fun m => cr (nth m h 0 * nth m (nth ch yq []) 0)) bb)%cx))%cx).
    { unfold fused_spectrum. rewrite WolaFacts.nth_map_seq by (rewrite OutFacts.div2_double; lia).
      rewrite <- csum_scale. apply csum_ext. intros c Hc.
      rewrite (dft_ext (2 * q) (fun m => cr (nth m h 0 * nth m (nth c yq []) 0)) (fun m => cr (nth m (nth c yq []) 0 * nth m h 0)))
        by (intros; f_equal; ring).
      ring. }
    unfold real_at. rewrite E2. destruct (Nat.eqb bb 0 || Nat.eqb bb q)%bool.
    + apply cx_eq; cbn; [|ring]. field_simplify; [reflexivity|exact SN].
    + match goal with |- (_ * (_ * ?X))%cx = _ => replace (cr (sqrt (INR Ns)) * (cr (/ sqrt (INR Ns)) * X))%cx with ((cr (sqrt (INR Ns)) * cr (/ sqrt (INR Ns))) * X)%cx by ring end.
      rewrite <- cr_mul, Rinv_r by exact SN. change (cr 1) with cone. ring.
  - intros Hs. apply all_zero_true in Hs. rewrite Hs in H. match type of H with Ok ?a = Ok ?b => assert (EZ : a = b) by congruence end. rewrite <- EZ. exact CU.
  - intros -> Hh Hpl Hs. assert (AZ : all_zero prev = false) by (destruct (all_zero prev) eqn:A; [exfalso; exact (Hs (proj1 (all_zero_true prev) A))|reflexivity]).
    rewrite AZ in H. replace (2 * q - q)%nat with q in H by lia.
    assert (EP : py_from (- Z.of_nat q) prev = skipn q prev).
    { unfold py_from. f_equal. unfold py_bound. destruct (Z.ltb_spec (- Z.of_nat q) 0); lia. }
    rewrite EP in H. unfold fit in H. rewrite skipn_length, Hpl in H. replace (2 * q - q)%nat with q in H by lia. rewrite Nat.eqb_refl in H. cbn [bind] in H.
    rewrite norm_val_2 in H by assumption. cbn [bind] in H. match type of H with Ok ?a = Ok ?b => assert (EZ : a = b) by congruence end. rewrite <- EZ. cbn [snd].
    assert (SK : forall j, nth j (skipn q prev) 0 = nth (q + j) prev 0).
    { intros j. clear. revert q. induction prev as [|a l IH]; intros [|q]; cbn; auto; destruct j; reflexivity. }
    split; intros j Hj; rewrite !WolaFacts.nth_map_seq by lia.
    + destruct (Nat.ltb_spec j q); [|lia]. rewrite CU, SK by lia. replace (j + q)%nat with (q + j)%nat by lia. reflexivity.
    + destruct (Nat.ltb_spec j q); [lia|]. rewrite CU by lia. ring.
Qed.

Section Whole.
  Variables (c : ocfg) (y : list (list (list R))) (q T k : nat).
  Hypothesis HN : p_N (o_p c) = Z.of_nat (2 * q).
  Hypothesis Hq : (0 < q)%nat.
  Hypothesis HNs : p_Ns (o_p c) = Z.of_nat q.
  Hypothesis Hwh : p_whole (o_p c) = true.
  Hypothesis Hh : length (o_h c) = (2 * q)%nat.
  Hypothesis Hy : Forall (fun col => length col = T) (nth k y []).
  Let nd := nth k (o_nodes c) (mkNode 1 [] []).

  Lemma whole_broadcast t st st' :
    (0 <= t / period nd <= Z.of_nat T)%Z -> (k < length (os_zl st))%nat ->
    online_broadcast c y t k st = Ok st' ->
    exists x, fused_frame c y q k (nth k (b_i (os_b st)) 0%nat) (t / period nd) x /\ length (chunk st' k) = (2 * q)%nat /\
      (silent (chunk st k) -> forall j, (j < 2 * q)%nat -> nth j (chunk st' k) 0 = nth j (o_f c) 0 * x j) /\
      (length (chunk st k) = (2 * q)%nat -> ~ silent (chunk st k) ->
         (forall j, (j < q)%nat -> nth j (chunk st' k) 0 = (nth (q + j) (chunk st k) 0 + nth j (o_f c) 0 * x j) /
                                    (nth (q + j) (o_h c) 0 * nth (q + j) (o_h c) 0 + nth j (o_h c) 0 * nth j (o_h c) 0)) /\
         (forall j, (q <= j < 2 * q)%nat -> nth j (chunk st' k) 0 = nth j (o_f c) 0 * x j)).
  Proof.
    intros He HZ H. unfold online_broadcast in H.
    apply bind_ok in H. destruct H as (nd' & Hnd & H). apply bind_ok in H. destruct H as (yk & Hyk & H). apply bind_ok in H. destruct H as (fr & Hfr & H).
    cbv zeta in H. destruct (existsb _ _) eqn:EX; [discriminate|]. apply bind_ok in H. destruct H as (ik & Hik & H). rewrite Hwh in H.
    apply bind_ok in H. destruct H as (prev & Hprev & H). apply bind_ok in H. destruct H as (z & Hz & H). apply bind_ok in H. destruct H as (b & Hb & H).
    injection H as <-. unfold chunk. cbn [os_zl].
    destruct (get_nth _ _ _ (mkNode 1 [] []) Hnd) as [End _]. destruct (get_nth _ _ _ [] Hyk) as [Ey _]. destruct (get_nth _ _ _ 0%nat Hik) as [Ei _]. destruct (get_nth _ _ _ [] Hprev) as [Ep _].
    rewrite nth_upd_eq by exact HZ. rewrite Ep, Ei. subst nd. rewrite End in *.
    rewrite HN, HNs, !Nat2Z.id in Hz.
    assert (LF : length fr = length yk) by (now apply mapM_length in Hfr).
    assert (HF : forall i, (i < length yk)%nat ->
               forall m, (m < 2 * q)%nat -> nth m (nth i (chunk_cols fr) []) 0 = sample 0 (nth i yk []) (t / period nd' - Z.of_nat (2 * q) + Z.of_nat m)).
    { intros i Hi. destruct (nth_error yk i) as [col|] eqn:Ec; [|apply nth_error_None in Ec; lia].
      destruct (mapM_nth_some _ _ _ _ _ Hfr Ec) as (r & Hr & Er).
      assert (Lc : length col = T). { rewrite Ey, Forall_forall in Hy. apply Hy. now apply nth_error_In in Ec. }
      destruct (C18_broadcast_chunk R 0 col t (period nd') (p_N (o_p c))) as (ch & E & L & S); [lia|lia|]. rewrite E in Hr. injection Hr as <-.
      assert (EN : nth i (chunk_cols fr) [] = ch) by (unfold chunk_cols; apply nth_error_nth; rewrite nth_error_map, Er; reflexivity).
      rewrite EN, (nth_error_nth _ _ [] Ec). intros m Hm. specialize (S (Z.of_nat m) ltac:(lia)). rewrite Nat2Z.id, HN in S.
      exact (nth_error_nth _ _ 0 S). }
    assert (LC : length (chunk_cols fr) = length yk) by (unfold chunk_cols; rewrite map_length; exact LF).
    destruct (compress_filtered q q (o_h c) (o_f c) _ _ _ _ Hq Hq Hz) as (x & F & S1 & S2).
    exists x. split; [|split; [exact (whole_length _ _ _ _ _ _ _ _ Hz)|]].
    - unfold fused_frame. rewrite Ey. rewrite LC in F. revert F. apply filtered_ext. intros ch m Hch Hm. unfold frame_of. rewrite Ey. now apply HF.
    - split; [exact S1|]. intros Lp Hs. exact (S2 eq_refl Hh Lp Hs).
  Qed.

  (** The chunk of the latest broadcast stays. *)
  Lemma chunk_kept evs : forall st r, (forall te, In te evs -> is_bc k te = false) -> foldM (online_event c y) evs st = Ok r -> chunk r k = chunk st k.
  Proof.
    induction evs as [|te evs IH]; intros st r Hn H; [injection H as <-; reflexivity|].
    cbn [foldM] in H. apply bind_ok in H. destruct H as (s1 & H1 & H). rewrite (IH _ _ (fun e He => Hn e (or_intror He)) H).
    exact (proj2 (proj2 (other_bc c y k te st s1 (Hn te (or_introl eq_refl)) H1))).
  Qed.
End Whole.

Lemma reached_split c y sched st a b s : (a <= b)%nat -> reached c y sched st b = Ok s ->
  exists sa, reached c y sched st a = Ok sa /\ foldM (online_event c y) (firstn (b - a) (skipn a (flat_events sched))) sa = Ok s.
Proof.
  intros Hab H. unfold reached in *.
  assert (E : firstn b (flat_events sched) = firstn a (flat_events sched) ++ firstn (b - a) (skipn a (flat_events sched))).
  { rewrite <- (firstn_skipn a (firstn b (flat_events sched))) at 1. rewrite firstn_firstn, Nat.min_l by exact Hab. f_equal. apply skipn_firstn_comm. }
  rewrite E, foldM_app in H. apply bind_ok in H. destruct H as (sa & H1 & H2). eauto.
Qed.
Lemma in_window {A} (l : list A) a n x : In x (firstn n (skipn a l)) -> exists m, (a <= m < a + n)%nat /\ nth_error l m = Some x.
Proof.
  intros H. apply In_nth_error in H. destruct H as (i & Hi). assert (i < n)%nat by (assert (i < length (firstn n (skipn a l)))%nat by (apply nth_error_Some; congruence); rewrite firstn_length in *; lia).
  exists (a + i)%nat. split; [lia|]. rewrite nth_error_firstn in Hi by assumption. rewrite nth_error_skipn in Hi. exact Hi.
Qed.

Section Chunks.
  Variables (c : ocfg) (y : list (list (list R))) (q T k : nat) (sched : list instant) (nsens : list nat) (ref : nat).
  Hypothesis HN : p_N (o_p c) = Z.of_nat (2 * q).
  Hypothesis Hq : (0 < q)%nat.
  Hypothesis HNs : p_Ns (o_p c) = Z.of_nat q.
  Hypothesis Hwh : p_whole (o_p c) = true.
  Hypothesis Hh : length (o_h c) = (2 * q)%nat.
  Hypothesis Hy : Forall (fun col => length col = T) (nth k y []).
  Let st0 := online_init 0 c nsens ref T.
  Let evs := flat_events sched.

  Lemma init_chunk : chunk st0 k = [].
  Proof.
    unfold chunk, st0, online_init. cbn [os_zl]. clear. revert k. induction (o_nodes c) as [|a l IH]; intros [|k]; cbn; auto.
  Qed.
  Lemma zl_len l s : foldM (online_event c y) l st0 = Ok s -> length (os_zl s) = length (o_nodes c).
  Proof. intros H. rewrite (run_zl c y l st0 s H). unfold st0, online_init. cbn [os_zl]. apply map_length. Qed.
  Lemma chunk_len l : forall s, foldM (online_event c y) l st0 = Ok s -> chunk s k = [] \/ length (chunk s k) = (2 * q)%nat.
  Proof.
    induction l as [|te l IH] using rev_ind; intros s H; [injection H as <-; left; exact init_chunk|].
    rewrite foldM_app in H. apply bind_ok in H. destruct H as (s1 & H1 & H). cbn [foldM] in H. apply bind_ok in H. destruct H as (s2 & H2 & H). injection H as <-.
    destruct (is_bc k te) eqn:B.
    - right. destruct (event_op c y ltac:(lia) te s1 s2 ltac:(rewrite (zl_len _ _ H1); lia) H2) as (o & l0 & _ & _ & _ & _ & L & _).
      specialize (L k B Hwh). unfold chunk. rewrite HN in L. lia.
    - unfold chunk. rewrite (proj2 (proj2 (other_bc c y k te s1 s2 B H2))). exact (IH s1 H1).
  Qed.

  (** One broadcast in a run. *)
  Lemma chunk_at m t s1 s : reached c y sched st0 m = Ok s1 -> nth_error evs m = Some (t, (k, Bc)) -> reached c y sched st0 (S m) = Ok s ->
    let e := (t / period (nth k (o_nodes c) (mkNode 1 [] [])))%Z in (0 <= e <= Z.of_nat T)%Z ->
    exists x, fused_frame c y q k (length (updates_of k (firstn m evs))) e x /\ length (chunk s k) = (2 * q)%nat /\
      (forall j, (q <= j < 2 * q)%nat -> nth j (chunk s k) 0 = nth j (o_f c) 0 * x j) /\
      (silent (chunk s1 k) -> forall j, (j < q)%nat -> nth j (chunk s k) 0 = nth j (o_f c) 0 * x j) /\
      (~ silent (chunk s1 k) -> forall j, (j < q)%nat -> nth j (chunk s k) 0 = (nth (q + j) (chunk s1 k) 0 + nth j (o_f c) 0 * x j) /
                                    (nth (q + j) (o_h c) 0 * nth (q + j) (o_h c) 0 + nth j (o_h c) 0 * nth j (o_h c) 0)).
  Proof.
    intros H1 Hm H e He. assert (Lm : (m < length evs)%nat) by (apply nth_error_Some; congruence).
    destruct (reached_split c y sched st0 m (S m) s ltac:(lia) H) as (s1' & E1 & E2). rewrite H1 in E1. injection E1 as <-.
    replace (S m - m)%nat with 1%nat in E2 by lia.
    assert (Sk : firstn 1 (skipn m evs) = [(t, (k, Bc))]).
    { clear -Hm. revert Hm. generalize evs. induction m as [|m IH]; intros [|a l] Hm; try discriminate; [cbn in *; congruence|exact (IH l Hm)]. }
    fold evs in E2. rewrite Sk in E2. cbn [foldM] in E2. apply bind_ok in E2. destruct E2 as (s' & E2 & X). injection X as ->.
    unfold online_event in E2. cbn [fst snd] in E2.
    assert (Lz : (k < length (os_zl s1))%nat).
    { unfold reached in H1. rewrite (zl_len _ _ H1). unfold online_broadcast in E2. apply bind_ok in E2. destruct E2 as (nd' & Hnd & _). exact (proj2 (get_nth _ _ _ (mkNode 1 [] []) Hnd)). }
    destruct (whole_broadcast c y q T k HN Hq HNs Hwh Hh Hy t s1 s He Lz E2) as (x & F & L & A & B).
    exists x. unfold reached in H1. rewrite (run_index c y k _ _ _ H1) in F.
    assert (I0 : nth k (b_i (os_b st0)) 0%nat = 0%nat).
    { unfold st0. cbn. unfold init_state. cbn. clear. revert k. induction (o_nodes c) as [|a l IH]; intros [|k]; cbn; auto. }
    rewrite I0 in F. split; [exact F|]. split; [exact L|].
    destruct (chunk_len _ _ H1) as [Z|Z].
    - assert (S : silent (chunk s1 k)) by (rewrite Z; intros v []). split; [intros j Hj; apply A; [exact S|lia]|]. split; [intros _ j Hj; apply A; [exact S|lia]|intros N; contradiction].
    - assert (D : silent (chunk s1 k) \/ ~ silent (chunk s1 k)).
      { destruct (all_zero (chunk s1 k)) eqn:AZ; [left; exact (proj1 (all_zero_true _) AZ)|right; intros S; apply all_zero_true in S; congruence]. }
      split; [intros j Hj; destruct D as [S|S]; [apply A; [exact S|lia]|apply (B Z S); lia]|].
      split; [intros S j Hj; apply A; [exact S|lia]|intros S; apply (B Z S)].
  Qed.

  Lemma chunks_sent m t r : online_run c y sched st0 = Ok r -> nth_error evs m = Some (t, (k, Bc)) ->
    let e t := (t / period (nth k (o_nodes c) (mkNode 1 [] [])))%Z in (0 <= e t <= Z.of_nat T)%Z ->
    exists s x, reached c y sched st0 (S m) = Ok s /\ fused_frame c y q k (length (updates_of k (firstn m evs))) (e t) x /\ length (chunk s k) = (2 * q)%nat /\
      (forall j, (q <= j < 2 * q)%nat -> nth j (chunk s k) 0 = nth j (o_f c) 0 * x j) /\
      (no_broadcast k evs 0 m -> forall j, (j < q)%nat -> nth j (chunk s k) 0 = nth j (o_f c) 0 * x j) /\
      (forall m' t', (m' < m)%nat -> nth_error evs m' = Some (t', (k, Bc)) -> no_broadcast k evs (S m') m -> (0 <= e t' <= Z.of_nat T)%Z ->
         exists s' x', reached c y sched st0 (S m') = Ok s' /\ fused_frame c y q k (length (updates_of k (firstn m' evs))) (e t') x' /\
           (forall j, (q <= j < 2 * q)%nat -> nth j (chunk s' k) 0 = nth j (o_f c) 0 * x' j) /\
           (silent (chunk s' k) -> forall j, (j < q)%nat -> nth j (chunk s k) 0 = nth j (o_f c) 0 * x j) /\
           (~ silent (chunk s' k) -> forall j, (j < q)%nat -> nth j (chunk s k) 0 =
              (nth (q + j) (o_f c) 0 * x' (q + j)%nat + nth j (o_f c) 0 * x j) / (nth (q + j) (o_h c) 0 * nth (q + j) (o_h c) 0 + nth j (o_h c) 0 * nth j (o_h c) 0))).
  Proof.
    intros H Hm e He.
    assert (Rch : forall m, exists s, reached c y sched st0 m = Ok s).
    { intros m0. unfold online_run in H. rewrite <- (firstn_skipn m0 (flat_events sched)), foldM_app in H. apply bind_ok in H. destruct H as (s & Hs & _). exists s. exact Hs. }
    destruct (Rch m) as (s1 & H1). destruct (Rch (S m)) as (s & Hs).
    destruct (chunk_at m t s1 s H1 Hm Hs He) as (x & F & L & A & B & C).
    exists s, x. split; [exact Hs|]. split; [exact F|]. split; [exact L|]. split; [exact A|]. split.
    - intros N. apply B. unfold reached in H1. rewrite (chunk_kept c y k (firstn m (flat_events sched)) st0 s1); [rewrite init_chunk; intros v []| |exact H1].
      intros te Hte. destruct (in_window (flat_events sched) 0 m te Hte) as (i & Hi & Ei). exact (N i te ltac:(lia) Ei).
    - intros m' t' Hlt Hm' N He'. destruct (Rch m') as (s1' & H1'). destruct (Rch (S m')) as (s' & Hs').
      destruct (chunk_at m' t' s1' s' H1' Hm' Hs' He') as (x' & F' & L' & A' & _).
      exists s', x'. split; [exact Hs'|]. split; [exact F'|]. split; [exact A'|].
      destruct (reached_split c y sched st0 (S m') m s1 ltac:(lia) H1) as (sa & Ea & Eb). rewrite Hs' in Ea. injection Ea as <-.
      assert (K : chunk s1 k = chunk s' k).
      { apply (chunk_kept c y k _ s' s1) with (2 := Eb). intros te Hte. destruct (in_window _ _ _ te Hte) as (i & Hi & Ei). exact (N i te ltac:(lia) Ei). }
      rewrite <- K. split; [exact B|]. intros S j Hj. rewrite (C S j Hj), K, A' by lia. reflexivity.
  Qed.
End Chunks.
