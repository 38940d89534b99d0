(** Synchronous runs with efficient few-sample broadcasts. *)
From Verif Require Import Base BaseFacts Sched SchedSpec SchedFacts SchedFacts4 SchedFacts5 InstSpec InstFacts Buffers BufSpec BufFacts SyncFacts SyncFacts2 SyncFacts3.
Open Scope Z_scope.

Lemma NoDup_sorted_lt l : StronglySorted Z.lt l -> NoDup l.
Proof.
  induction 1 as [|x l H IH HF]; constructor; [|exact IH]. intros Hin. rewrite Forall_forall in HF. specialize (HF _ Hin). lia.
Qed.

Lemma stamps_between per Nt a b : 0 < per -> 0 <= a -> a <= b -> b < Z.of_nat Nt ->
  Z.of_nat (length (filter (fun u => (a * per <? u) && (u <=? b * per)) (exact_clock per Nt))) = b - a.
Proof.
  intros Hper Ha Hab Hb.
  rewrite (count_by_set _ _ (fun i => (a + 1 + Z.of_nat i * 1) * per) (Z.to_nat (b - a))); [lia | | |].
  - apply NoDup_sorted_lt, exact_clock_sorted; exact Hper.
  - intros i j H. revert H. apply pos_inj; [lia | exact Hper].
  - intros x. rewrite exact_clock_In, andb_true_iff, Z.ltb_lt, Z.leb_le. split.
    + intros [[i [Hi ->]] [H1 H2]]. rewrite <- Z.mul_lt_mono_pos_r in H1 by exact Hper. rewrite <- Z.mul_le_mono_pos_r in H2 by exact Hper.
      exists (Z.to_nat (Z.of_nat i - a - 1)). split; [lia|]. f_equal. lia.
    + intros [i [Hi ->]]. split; [exists (Z.to_nat (a + 1 + Z.of_nat i * 1)); split; [lia | f_equal; lia]|].
      rewrite <- Z.mul_lt_mono_pos_r, <- Z.mul_le_mono_pos_r by exact Hper. lia.
Qed.

(** broadcasts at multiples of L samples: the size is the number of elapsed sample periods *)
Lemma efficient_size_elapsed per Nt L a b : 0 < per -> 0 < L -> 0 <= a -> a <= b -> b * L < Z.of_nat Nt ->
  efficient_size L (exact_clock per Nt) (a * L * per) (b * L * per) = (b - a) * L.
Proof.
  intros Hper HL Ha Hab Hb. unfold efficient_size. rewrite stamps_between by nia.
  replace (b * L - a * L) with ((b - a) * L) by ring. rewrite Z.div_mul by lia. ring.
Qed.

Lemma nth_map_const {X} (l : list X) q : nth q (map (fun _ => 0) l) 0 = 0.
Proof. revert q. induction l as [|x l IH]; intros [|q]; simpl; auto. Qed.

Section Eff.
  Variable A : Type.
  Variable p : sparams.
  Variable nodes : list snode.
  Variable compress : nat -> Z -> Z -> list A.
  Variables (per : Z) (Nt : nat).
  Hypothesis Hcomp : forall k t n, 0 <= n -> Z.of_nat (length (compress k t n)) = n.
  Hypothesis Hp : good_params p.
  Hypothesis Hper : 0 < per.
  Hypothesis Hsync : forall nd, In nd nodes -> period nd = per /\ stamps nd = exact_clock per Nt.
  Hypothesis Hw : p_whole p = false.
  Hypothesis He : p_efficient p = true.
  Variable evs : list tev.
  Hypothesis HS : StronglySorted before evs.
  Hypothesis HD : NoDup evs.
  Hypothesis Hvalid : forall x, In x evs -> valid_ev nodes x.
  Hypothesis HBc : forall t q, In (t, (q, Bc)) evs -> exists m, t = m * p_L p * per /\ 0 <= m /\ m * p_L p < Z.of_nat Nt.
  Let l0 := map (fun _ : snode => 0) nodes.

  Lemma eff_invariant pre : forall post, evs = pre ++ post -> forall q, (q < length nodes)%nat ->
    exists m, nth q (lasts_of p l0 pre) 0 = m * p_L p * per /\ 0 <= m /\
      Z.of_nat (length (sent q (hist A p nodes compress l0 pre))) = m * p_L p /\
      (forall t', In (t', (q, Bc)) pre -> t' <= m * p_L p * per) /\
      (m = 0 \/ In (m * p_L p * per, (q, Bc)) pre).
  Proof.
    destruct Hp as [HN [HNs HL]].
    induction pre as [|x pre IH] using rev_ind; intros post E q Hq.
    - exists 0. split; [|split; [lia|split; [reflexivity|split; [intros t' []|left; reflexivity]]]].
      cbn [lasts_of]. unfold l0. rewrite Z.mul_0_l. apply nth_map_const.
    - rewrite <- app_assoc in E. destruct (IH _ E q Hq) as [m [H1 [H2 [H3 [H4 H5]]]]].
      assert (Hx : In x evs) by (rewrite E; apply in_or_app; right; left; reflexivity).
      destruct (Hvalid x Hx) as [Hk Hty]. destruct x as [t [k ty]]. simpl in Hk, Hty.
      rewrite lasts_of_app, hist_app. cbn [lasts_of hist]. rewrite sent_snoc.
      assert (Hlen : length (lasts_of p l0 pre) = length nodes) by (rewrite lasts_of_length by congruence; apply map_length).
      destruct Hty as [->| ->].
      + exists m. cbn [lasts_after]. rewrite app_nil_r. split; [exact H1|]. split; [exact H2|]. split; [exact H3|]. split.
        * intros t' Ht'. apply in_app_or in Ht'. destruct Ht' as [Ht'|[Ht'|[]]]; [auto | discriminate].
        * destruct H5 as [H5|H5]; [left; exact H5 | right; apply in_or_app; left; exact H5].
      + cbn [lasts_after]. rewrite Hw, He. destruct (Nat.eqb_spec k q) as [->|Hne].
        * destruct (HBc t q Hx) as [m' [Et [Hm' HmNt]]].
          assert (Hmm : m <= m').
          { destruct H5 as [->|H5]; [lia|].
            rewrite E in HS. destruct (StronglySorted_app_inv _ _ _ HS) as [_ [_ S3]].
            specialize (S3 _ _ H5 (or_introl eq_refl)). destruct S3 as [S3|[S3 _]]; cbn [fst] in S3; rewrite Et in S3.
            - rewrite <- Z.mul_lt_mono_pos_r in S3 by exact Hper. nia.
            - apply Z.mul_reg_r in S3; [|lia]. apply Z.mul_reg_r in S3; lia. }
          exists m'. split; [|split; [exact Hm'|split; [|split]]].
          -- rewrite <- Et. apply nth_error_nth. rewrite upd_nth, Nat.eqb_refl.
             destruct (nth_error (lasts_of p l0 pre) q) eqn:En; [reflexivity | apply nth_error_None in En; lia].
          -- rewrite app_length, Nat2Z.inj_add, H3.
             assert (EC : Z.of_nat (length (chunk_of A p nodes compress (lasts_of p l0 pre) t q)) = size_of p nodes (lasts_of p l0 pre) t q).
             { unfold chunk_of. rewrite Hw. unfold chunk_to_send.
               assert (Hs0 : 0 <= size_of p nodes (lasts_of p l0 pre) t q) by (unfold size_of; rewrite Hw, He; unfold efficient_size; apply Z.mul_nonneg_nonneg; [lia | apply Z.div_pos; lia]).
               set (s := size_of p nodes (lasts_of p l0 pre) t q) in *. pose proof (Hcomp q t s Hs0).
               destruct (Z.ltb_spec (- s) 0); [rewrite py_from_neg_length by lia; lia|].
               destruct (Z.ltb_spec 0 (- s)); simpl; lia. }
             rewrite EC. unfold size_of. rewrite Hw, He, H1.
             destruct (nth_error nodes q) as [nd|] eqn:En; [|apply nth_error_None in En; lia].
             destruct (Hsync nd (nth_error_In _ _ En)) as [_ ->]. rewrite Et.
             rewrite efficient_size_elapsed by (assumption || lia). ring.
          -- intros t' Ht'. apply in_app_or in Ht'. destruct Ht' as [Ht'|[Ht'|[]]]; [|injection Ht' as <-; lia].
             specialize (H4 _ Ht').
             assert (m * p_L p <= m' * p_L p) by nia. nia.
          -- right. apply in_or_app. right. left. rewrite Et. reflexivity.
        * exists m. rewrite app_nil_r. split.
          -- rewrite <- H1. rewrite <- (nth_default_eq), <- (nth_default_eq). unfold nth_default. rewrite upd_nth.
             destruct (Nat.eqb_spec k q); [congruence | reflexivity].
          -- split; [exact H2|]. split; [exact H3|]. split.
             ++ intros t' Ht'. apply in_app_or in Ht'. destruct Ht' as [Ht'|[Ht'|[]]]; [auto | injection Ht' as _ Hkq; congruence].
             ++ destruct H5 as [H5|H5]; [left; exact H5 | right; apply in_or_app; left; exact H5].
  Qed.

  Lemma eff_sent pre t k post q : evs = pre ++ (t, (k, Up)) :: post -> (q < length nodes)%nat ->
    In (t, (q, Bc)) evs -> Z.of_nat (length (sent q (hist A p nodes compress l0 pre))) * per = t.
  Proof.
    intros E Hq Hb. destruct (eff_invariant pre _ E q Hq) as [m [H1 [H2 [H3 [H4 H5]]]]].
    rewrite H3. rewrite E in HS, HD, Hb.
    assert (Hin : In (t, (q, Bc)) pre) by (apply (before_irrefl_up t k _ pre post q t HS HD eq_refl); split; [exact Hb | lia]).
    specialize (H4 _ Hin). destruct H5 as [->|H5].
    - destruct (HBc t q) as [m' [-> [Hm' _]]]; [rewrite E; exact Hb|]. destruct Hp as [_ [_ HL]]. rewrite !Z.mul_0_l in *. nia.
    - apply (before_irrefl_up t k _ pre post q _ HS HD eq_refl) in H5. lia.
  Qed.
End Eff.

Lemma sync_efficient A (zero : A) tsort p nodes ordering_of compress per Nt :
  is_argsort tsort -> good_params p -> p_whole p = false -> p_efficient p = true ->
  p_ti p = false ->
  (p_Ns p | p_N p) -> (p_L p | p_Ns p) -> p_L p < Z.of_nat Nt ->
  synchronous per Nt nodes -> symmetric_net (map nbrs nodes) ->
  (forall k t n, 0 <= n -> Z.of_nat (length (compress k t n)) = n) ->
  exists sched, initialize_events tsort p nodes ordering_of = Ok (sched, []) /\
    (forall t k, scheduled sched t k Up <->
       (k < length nodes)%nat /\ grid per (p_N p) (p_Ns p) (Z.of_nat (Nt - 1) / p_Ns p * p_Ns p) t) /\
    (forall pre t k post, events_of sched = pre ++ (t, (k, Up)) :: post ->
       exists st, run_events zero p nodes compress pre (init_state A nodes) = Ok st /\
         forall idx q b, link (map nbrs nodes) k idx q -> buffer_at (b_buf st) k idx b ->
           Z.of_nat (length b) = if Nat.eqb (event_count k Up pre) 0 then p_N p else p_Ns p) /\
    exists st, run_schedule zero p nodes compress sched (init_state A nodes) = Ok st /\
      forall k nd, nth_error nodes k = Some nd ->
        flag_rows k (b_log st) = rows_expected (length (nbrs nd)) (p_N p) (p_N p) (event_count k Up (events_of sched)).
Proof.
  intros Hsort Hgp Hw He Hti HdN HdL HLNt [Hper Hsync] Hnet Hcomp.
  assert (Hgp' := Hgp). destruct Hgp' as [HN [HNs HL]].
  assert (HNt : (0 < Nt)%nat) by lia.
  assert (HNsN : p_Ns p <= p_N p) by (apply Z.divide_pos_le; assumption).
  set (U := Z.of_nat (Nt - 1) / p_Ns p * p_Ns p).
  assert (HU : U <= Z.of_nat (Nt - 1)) by (unfold U; pose proof (Z.mul_div_le (Z.of_nat (Nt - 1)) (p_Ns p) HNs); lia).
  assert (Hupof : forall nd, In nd nodes -> exists l, up_of p nd = Ok l /\ forall t, In t l <-> grid per (p_N p) (p_Ns p) U t).
  { intros nd Hin. destruct (Hsync nd Hin) as [E1 E2]. fold (exact_clock per Nt) in E2.
    assert (Hg : good_node nd) by (split; [rewrite E2; apply exact_clock_sorted; exact Hper | rewrite E1; exact Hper]).
    assert (Hne : stamps nd <> []) by (rewrite E2; destruct Nt; [lia | discriminate]).
    destruct (aligned_all nd (p_N p) (p_Ns p) Hg Hne HNs) as [n [l [A1 [A2 A3]]]].
    exists l. split.
    - unfold up_of. rewrite A1. cbn [bind]. rewrite Hti. cbn [andb]. rewrite Z.mul_1_l, cdiv_exact by assumption. exact A2.
    - intros t. rewrite A3. apply (nominal_grid per Nt nd (p_N p) (p_Ns p) t Hper HNt HNs ltac:(lia) E1 E2). }
  destruct (mapM_total (up_of p) nodes) as [up Hup]. { intros nd Hin. destruct (Hupof nd Hin) as [l [E _]]. eauto. }
  assert (Hlu := mapM_length _ _ _ Hup).
  assert (Hupn : forall k l, nth_error up k = Some l -> forall t, In t l <-> grid per (p_N p) (p_Ns p) U t).
  { intros k l Hl. destruct (mapM_nth_inv _ _ _ _ _ Hup Hl) as [nd [Hnd Hu]].
    destruct (Hupof nd (nth_error_In _ _ Hnd)) as [l' [E HI]]. assert (l' = l) by congruence. subst l'. exact HI. }
  assert (Hgrid : forall t, grid per (p_N p) (p_Ns p) U t -> exists m, t = m * p_L p * per /\ 0 < m /\ m * p_L p < Z.of_nat Nt).
  { intros t [j [-> Hj]]. destruct HdN as [cN HcN]. destruct HdL as [cL HcL]. assert (0 < cN) by nia. assert (0 < cL) by nia.
    assert (EQ : p_N p + Z.of_nat j * p_Ns p = (cN + Z.of_nat j) * cL * p_L p) by nia.
    exists ((cN + Z.of_nat j) * cL). rewrite <- EQ. split; [reflexivity|]. split; [nia | lia]. }
  assert (Hbcof : forall nd, In nd nodes -> exists l, bc_of p up nd = Ok l /\
     forall t, In t l <-> nbrs nd <> [] /\ grid per (p_N p) (p_Ns p) U t).
  { intros nd Hin. destruct (Hsync nd Hin) as [E1 E2]. fold (exact_clock per Nt) in E2.
    assert (Hss : StronglySorted Z.lt (stamps nd)) by (rewrite E2; apply exact_clock_sorted; exact Hper).
    assert (Hnq : forall q, In q (nbrs nd) -> (q < length up)%nat).
    { intros q Hq. apply In_nth_error in Hin. destruct Hin as [k Hk].
      destruct (proj1 Hnet k (nbrs nd)) as [_ [_ Hr]]; [rewrite nth_error_map, Hk; reflexivity|].
      specialize (Hr q Hq). rewrite map_length in Hr. lia. }
    assert (Hcl : length (stamps nd) = Nt) by (rewrite E2; unfold exact_clock; rewrite map_length, seq_length; reflexivity).
    destruct (efficient_bc_full nd (Z.to_nat (p_L p)) up Hss ltac:(rewrite Hcl; lia) Hnq) as [u [l [F1 [F2 [F3 F4]]]]].
    exists l. split.
    - unfold bc_of, num_in_total. destruct (py_get_last (stamps nd)) as [x [Hx _]]; [rewrite E2; destruct Nt; [lia | discriminate]|].
      rewrite Hx. cbn [bind]. rewrite Hw, He. exact F1.
    - assert (Hu : forall x, In x u <-> nbrs nd <> [] /\ grid per (p_N p) (p_Ns p) U x).
      { intros x. rewrite F3. split.
        - intros [q [lq [Hq [Hlq Hx]]]]. split; [intros E; rewrite E in Hq; destruct Hq|]. apply (Hupn q lq Hlq). exact Hx.
        - intros [Hne Hg]. destruct (nbrs nd) as [|q ns] eqn:En; [congruence|].
          assert (Hq := Hnq q (or_introl eq_refl)). destruct (nth_error up q) as [lq|] eqn:Elq; [|apply nth_error_None in Elq; lia].
          exists q, lq. split; [left; reflexivity|]. split; [exact Elq|]. apply (Hupn q lq Elq). exact Hg. }
      assert (HF : Forall2 eq u l).
      { assert (HX : forall x, In x u -> block_instant (Z.to_nat (p_L p)) (stamps nd) x).
        { intros x Hx. apply Hu in Hx. destruct Hx as [_ Hx]. destruct (Hgrid x Hx) as [m [-> [Hm1 Hm2]]].
          exists (Z.to_nat (m - 1)). rewrite E2. unfold exact_clock. rewrite nth_error_map, nth_error_seq0.
          replace (Z.to_nat (p_L p) * S (Z.to_nat (m - 1)))%nat with (Z.to_nat (m * p_L p)) by nia.
          destruct (Nat.ltb_spec (Z.to_nat (m * p_L p)) Nt); [|lia]. simpl. f_equal. rewrite Z2Nat.id by nia. reflexivity. }
        clear -F4 HX. induction F4 as [|x t u l [P1 [P2 P3]] F4 IH]; constructor.
        - assert (Hb := HX x (or_introl eq_refl)). destruct P2 as [Q1 Q2]; [exists x; split; [exact Hb | lia]|].
          specialize (Q2 x Hb ltac:(lia)). lia.
        - apply IH. intros y Hy. apply HX. right; exact Hy. }
      assert (El : u = l) by (clear -HF; induction HF; congruence). subst l. exact Hu. }
  destruct (mapM_total (bc_of p up) nodes) as [bc Hbc]. { intros nd Hin. destruct (Hbcof nd Hin) as [l [E _]]. eauto. }
  assert (Hlb := mapM_length _ _ _ Hbc).
  set (em := map (fun _ : snode => @nil Z) nodes).
  assert (Htm : ~ tree_mode up em).
  { intros [_ [l [Hl Hn]]]. apply in_map_iff in Hl. destruct Hl as [nd [<- _]]. congruence. }
  destruct (exact_fc tsort up bc em em em [] (p_seq p) (p_start p) (p_every p) Hsort Htm ltac:(lia)) as [sched [Es [X1 [X2 X3]]]].
  exists sched. split.
  { unfold initialize_events, prep_evmat_build. rewrite Hup. cbn [bind]. rewrite Hbc. cbn [bind]. rewrite Hti. cbn [bind].
    cbn [pr_up pr_bc pr_fu pr_re pr_tr pr_orderings pr_trees]. fold em. rewrite Es. reflexivity. }
  set (evs := events_of sched).
  assert (Hsch : forall t k ty, In (t, (k, ty)) evs <-> scheduled sched t k ty).
  { intros t k ty. unfold evs. rewrite events_of_In. unfold scheduled. split; intros [i Hi]; exists i; exact Hi. }
  assert (HUp : forall t k, In (t, (k, Up)) evs <-> (k < length nodes)%nat /\ grid per (p_N p) (p_Ns p) U t).
  { intros t k. rewrite Hsch, X3. unfold requested. cbn [ev_node ev_type ev_t]. rewrite Hlu. split.
    - intros [Hk [l [Hl Hin]]]. split; [exact Hk|]. apply (Hupn k l Hl). exact Hin.
    - intros [Hk Hg]. split; [exact Hk|]. destruct (nth_error up k) as [l|] eqn:El; [|apply nth_error_None in El; lia].
      exists l. split; [exact El|]. apply (Hupn k l El). exact Hg. }
  assert (HBc : forall t k, In (t, (k, Bc)) evs <-> exists nd, nth_error nodes k = Some nd /\ nbrs nd <> [] /\ grid per (p_N p) (p_Ns p) U t).
  { intros t k. rewrite Hsch, X3. unfold requested. cbn [ev_node ev_type ev_t]. rewrite Hlu. split.
    - intros [Hk [l [Hl Hin]]]. destruct (mapM_nth_inv _ _ _ _ _ Hbc Hl) as [nd [Hnd Hu]]. exists nd. split; [exact Hnd|].
      destruct (Hbcof nd (nth_error_In _ _ Hnd)) as [l' [E HI]]. assert (l' = l) by congruence. subst l'. apply HI. exact Hin.
    - intros [nd [Hnd Hx]]. split; [apply nth_error_Some; congruence|].
      destruct (mapM_nth _ _ _ _ _ Hbc Hnd) as [l [Hl Hu]].
      destruct (Hbcof nd (nth_error_In _ _ Hnd)) as [l' [E HI]]. assert (l' = l) by congruence. subst l'.
      exists l. split; [exact Hl|]. apply HI. exact Hx. }
  assert (Hvalid : forall x, In x evs -> valid_ev nodes x).
  { intros [t [k ty]] Hx. assert (Hx' := Hx). apply Hsch, X3 in Hx'. destruct Hx' as [Hk Hm]. simpl in Hk. split; [simpl; lia|].
    simpl. cbn [ev_type] in Hm. destruct ty; auto; destruct Hm; discriminate. }
  assert (Hord : forall i, In i sched -> NoDup (in_evs i) /\ StronglySorted fc_before (in_evs i)).
  { intros i Hi. destruct (X2 i Hi) as [_ [Y _]]. split; [exact Y|]. eapply fc_order_in_schedule; [exact Hsort | exact Htm | exact Es | exact Hi]. }
  destruct (events_of_sorted sched X1 Hord) as [HS HD]. fold evs in HS, HD.
  assert (HBm : forall t q, In (t, (q, Bc)) evs -> exists m, t = m * p_L p * per /\ 0 <= m /\ m * p_L p < Z.of_nat Nt).
  { intros t q Hb. apply HBc in Hb. destruct Hb as [nd [_ [_ Hg]]]. destruct (Hgrid t Hg) as [m [H1 [H2 H3]]]. exists m. split; [exact H1|]. split; [lia | exact H3]. }
  assert (Hsent : forall k idx q pre t post, link (map nbrs nodes) k idx q -> evs = pre ++ (t, (k, Up)) :: post ->
    Z.of_nat (length (sent q (hist A p nodes compress (map (fun _ => 0) nodes) pre))) =
    p_N p + Z.of_nat (reads k (hist A p nodes compress (map (fun _ => 0) nodes) pre)) * p_Ns p).
  { intros k idx q pre t post HLk E.
    assert (Hvp : forall x, In x pre -> valid_ev nodes x) by (intros x Hx; apply Hvalid; rewrite E; apply in_or_app; left; exact Hx).
    rewrite reads_hist by exact Hvp.
    assert (Hin : In (t, (k, Up)) evs) by (rewrite E; apply in_or_app; right; left; reflexivity).
    apply HUp in Hin. destruct Hin as [Hk Hg]. assert (Hg' := Hg). destruct Hg' as [j [Et Hj]].
    rewrite (up_count per (p_N p) (p_Ns p) U (length nodes) Hper HNs evs HS HD HUp pre t k post j E Et).
    destruct (link_sym _ _ _ _ Hnet HLk) as [lq [Hlq Hkq]]. rewrite nth_error_map in Hlq.
    destruct (nth_error nodes q) as [nq|] eqn:Enq; [|discriminate]. simpl in Hlq. injection Hlq as <-.
    assert (Hq : (q < length nodes)%nat) by (apply nth_error_Some; congruence).
    assert (Hb : In (t, (q, Bc)) evs).
    { apply HBc. exists nq. split; [exact Enq|]. split; [intros E0; rewrite E0 in Hkq; destruct Hkq | exact Hg]. }
    pose proof (eff_sent A p nodes compress per Nt Hcomp Hgp Hper Hsync Hw He evs HS HD Hvalid HBm pre t k post q E Hq Hb) as HE.
    rewrite Et in HE. apply Z.mul_reg_r in HE; lia. }
  split; [intros t k; rewrite <- Hsch; apply HUp|].
  destruct (sync_conclusion A zero p nodes compress Hcomp Hnet Hgp ltac:(congruence) HNsN evs (p_N p) Hvalid Hsent) as [C1 C2].
  split; [exact C1|]. destruct C2 as [st [E2 R2]]. exists st. split; [rewrite run_schedule_events; exact E2 | exact R2].
Qed.
