(** Lemmas behind TiSchedProps.v: schedules of topology-independent runs. *)
From Verif Require Import Base BaseFacts Sched SchedSpec SchedFacts SchedFacts2 SchedFacts3 InstSpec InstFacts TreeRootFacts SchedFacts4 SchedFacts5.
From Verif Require Import Buffers Tree TreeSpec InNet InNetSpec TiSpec TiSchedSpec.
From Verif Require TreeProps SyncFacts SyncFacts4 CentrFacts InNetFacts TiFacts.
Open Scope Z_scope.

(** ** The tree bookkeeping succeeds *)
Lemma order_total trI os st gs : os <> [] -> -1 <= treeCounter st ->
  treeCounter st + Z.of_nat (length (filter (fun u => memZ u trI) (map fst gs))) < Z.of_nat (length os) ->
  exists gs', order_groups true trI os st gs = Ok gs'.
Proof.
  intros Ho. revert st. induction gs as [|[t g] gs IH]; intros st H1 H2; [eexists; reflexivity|].
  cbn [order_groups map fst filter] in *. unfold tree_step.
  set (st' := if memZ t trI && negb (match lastTreeInstant st with Some u => t =? u | None => false end) then mkTree (treeCounter st + 1) (Some t) else st).
  assert (B1 : -1 <= treeCounter st') by (unfold st'; destruct (memZ t trI && _); cbn [treeCounter]; lia).
  assert (B2 : treeCounter st' + Z.of_nat (length (filter (fun u => memZ u trI) (map fst gs))) < Z.of_nat (length os)).
  { unfold st'. destruct (memZ t trI); cbn [andb length] in *; [|lia]. destruct (negb _); cbn [treeCounter]; lia. }
  assert (Hg : exists o, py_get os (treeCounter st') = Ok o).
  { unfold py_get. assert (L : (0 < length os)%nat) by (destruct os; [congruence|cbn; lia]).
    set (z := treeCounter st') in *. cbv zeta.
    destruct (Z.ltb_spec z 0).
    - replace (0 <=? z + Z.of_nat (length os)) with true by lia. replace (z + Z.of_nat (length os) <? Z.of_nat (length os)) with true by lia. cbn [andb]. apply get_lt. lia.
    - replace (0 <=? z) with true by lia. replace (z <? Z.of_nat (length os)) with true by lia. cbn [andb]. apply get_lt. lia. }
  destruct Hg as [o Hg]. rewrite Hg. cbn [bind]. destruct (IH st' B1 B2) as [gs' E]. rewrite E. eexists; reflexivity.
Qed.

Definition is_tr (e : nat * evtype) : bool := match snd e with Tr => true | _ => false end.
Lemma regular_intro n trees c sched :
  (forall pre i post, sched = pre ++ i :: post ->
     length (in_byp i) = length (in_evs i) /\ (InNetSpec.trees_formed (in_evs i) <= 1)%nat /\
     let c' := (c + length (filter is_tr (flat_map in_evs (pre ++ [i]))))%nat in
     ((exists k, in_evs i = [(k, Tr)] /\ (c' <= length trees)%nat) \/
      ((0 < c')%nat /\ exchange_over n (nth_error trees (c' - 1)) (in_evs i)))) ->
  regular n trees c sched.
Proof.
  revert c. induction sched as [|i s IH]; intros c H; [exact I|]. cbn [regular].
  destruct (H [] i s eq_refl) as (H1 & H2 & H3).
  cbn [app flat_map] in H3. rewrite app_nil_r in H3. change (length (filter is_tr (in_evs i))) with (InNetSpec.trees_formed (in_evs i)) in H3. cbv zeta in H3.
  split; [exact H1|]. split; [exact H2|]. split.
  - destruct H3 as [(k & E & Hk)|H3]; [left|right; exact H3]. exists k. split; [exact E|]. rewrite E in Hk. cbn in Hk. lia.
  - apply IH. intros pre j post E. destruct (H (i :: pre) j post ltac:(cbn; now rewrite E)) as (G1 & G2 & G3).
    split; [exact G1|]. split; [exact G2|]. cbv zeta in *. cbn [app flat_map] in G3. rewrite filter_app, app_length in G3.
    change (length (filter is_tr (in_evs i))) with (InNetSpec.trees_formed (in_evs i)) in G3. rewrite Nat.add_assoc in G3. exact G3.
Qed.
Lemma filter_le_split s pre i post : StronglySorted Z.lt (map in_t s) -> s = pre ++ i :: post ->
  filter (fun j => in_t j <=? in_t i) s = pre ++ [i].
Proof.
  intros HS ->. rewrite map_app in HS. cbn [map] in HS. apply SyncFacts.StronglySorted_app_inv in HS as (HA & HB & HC).
  rewrite filter_app. cbn [filter]. rewrite Z.leb_refl. f_equal; [|f_equal].
  - apply CentrFacts.filter_all. intros j Hj. specialize (HC (in_t j) (in_t i) (in_map _ _ _ Hj) (or_introl eq_refl)). lia.
  - apply InNetFacts.filter_none. intros j Hj. inversion HB as [|? ? _ HF]; subst. rewrite Forall_forall in HF. specialize (HF _ (in_map _ _ _ Hj)). lia.
Qed.

Section Uniform.
Variables (n first : nat) (U B rest : list Z) (tr : list (list Z)) (os : list ordering) (isseq : bool) (mf : Z).
Notation trT := (0 :: rest).
Hypothesis (Hn : (0 < n)%nat) (Hf : (first < n)%nat) (HS : StronglySorted Z.lt trT).
Hypothesis (HrU : incl rest U) (HUB : incl U B) (HB : forall t, In t B -> 0 < t) (HB0 : B <> []).
Hypothesis (Htr : mapM (mask_select trT (cyc first (length trT) n)) (seq 0 n) = Ok tr).
Hypothesis (Hos : length os = length trT) (Hfull : forall o, In o os -> full_ordering n o).
Notation up := (repeat U n).
Notation bc := (repeat B n).

Lemma trT_NoDup : NoDup trT. Proof. apply SyncFacts4.NoDup_sorted_lt, HS. Qed.
Lemma flag_on : ti_flag up bc = true.
Proof.
  unfold ti_flag. rewrite !repeat_length, Nat.eqb_refl, andb_true_r. destruct n; [lia|]. cbn [repeat existsb]. destruct B; [congruence|reflexivity].
Qed.
Lemma repeat_listed (l : list Z) k t : listed (repeat l n) k t <-> (k < n)%nat /\ In t l.
Proof.
  unfold listed. split.
  - intros (l' & E & H). assert (k < n)%nat by (rewrite <- (repeat_length l n); apply nth_error_Some; congruence).
    rewrite nth_error_repeat in E by lia. injection E as <-. auto.
  - intros [H1 H2]. exists l. rewrite nth_error_repeat by lia. auto.
Qed.
Lemma tr_mask : length tr = n /\ forall k t, listed tr k t <-> (k < n)%nat /\ In (t, k) (combine trT (cyc first (length trT) n)).
Proof. destruct (mask_listed _ _ _ _ Htr Hn) as (_ & A & C). auto. Qed.
Lemma tr_of t : In t trT -> exists k, (k < n)%nat /\ In (t, k) (combine trT (cyc first (length trT) n)).
Proof.
  intros H. apply In_nth_error in H as [i Hi]. assert (L : (i < length trT)%nat) by (apply nth_error_Some; congruence).
  exists ((first + i) mod n)%nat. split; [apply Nat.mod_upper_bound; lia|].
  eapply nth_error_In, combine_nth_error; [exact Hi|apply cyc_nth, L].
Qed.
Lemma tr_fun t k k' : In (t, k) (combine trT (cyc first (length trT) n)) -> In (t, k') (combine trT (cyc first (length trT) n)) -> k = k'.
Proof.
  apply TiFacts.NoDup_fst_unique. 
  assert (E : forall (A C : Type) (a : list A) (b : list C), length a = length b -> map fst (combine a b) = a).
  { clear. induction a; destruct b; cbn; intros; try lia; [reflexivity|]. f_equal. apply IHa. lia. }
  rewrite E by now rewrite cyc_length. exact trT_NoDup.
Qed.
Lemma tr_zero k : In (0, k) (combine trT (cyc first (length trT) n)) -> k = first.
Proof.
  intros H. apply (tr_fun 0 k first H). eapply nth_error_In with (n := 0%nat), combine_nth_error; [reflexivity|].
  rewrite cyc_nth by (cbn; lia). f_equal. rewrite Nat.add_0_r. apply Nat.mod_small, Hf.
Qed.
Lemma requested_iff t k ty : requested true up bc bc bc tr (mkEv t k ty) <->
  (k < n)%nat /\ match ty with Up => In t U | Tr => In (t, k) (combine trT (cyc first (length trT) n)) | _ => In t B end.
Proof.
  destruct tr_mask as [A C]. unfold requested. cbn [ev_node ev_type ev_t]. rewrite repeat_length.
  destruct ty; rewrite ?repeat_listed, ?C; tauto.
Qed.

Lemma build_total tsort : is_argsort tsort -> exists sched, build_events_matrix tsort up bc bc bc tr os isseq first mf = Ok sched.
Proof.
  intros Ht. destruct tr_mask as [A C]. unfold build_events_matrix. fold (ti_flag up bc). rewrite flag_on. rewrite !repeat_length.
  destruct (flatten_total n up Up ltac:(rewrite repeat_length; lia)) as [upI EU]. rewrite EU. cbn [bind].
  destruct (flatten_total n bc Bc ltac:(rewrite repeat_length; lia)) as [bcI EB]. rewrite EB. cbn [bind].
  destruct (flatten_total n bc Fu ltac:(rewrite repeat_length; lia)) as [fuI EF]. rewrite EF. cbn [bind].
  destruct (flatten_total n bc Re ltac:(rewrite repeat_length; lia)) as [reI ER]. rewrite ER. cbn [bind].
  destruct (flatten_total n tr Tr ltac:(lia)) as [trI ET]. rewrite ET. cbn [bind].
  destruct (Ht (trI ++ upI ++ bcI ++ fuI ++ reI)) as [HP HSo]. set (evs := tsort _) in *.
  replace (length upI + length bcI + length fuI + length reI + length trI)%nat with (length evs)
    by (rewrite (Permutation_length HP), !app_length; lia).
  rewrite build_loop_spec by lia. cbn [skipn].
  destruct (order_total (map ev_t trI) os (mkTree (-1) None) (groups (length evs) evs)) as [gs Eg].
  - intros ->. discriminate. - cbn; lia.
  - cbn [treeCounter]. rewrite Hos.
    destruct (groups_times (length evs) evs HSo) as [G1 _].
    assert (length (filter (fun u => memZ u (map ev_t trI)) (map fst (groups (length evs) evs))) <= length trT)%nat; [|lia].
    apply NoDup_incl_length; [apply NoDup_filter, SyncFacts4.NoDup_sorted_lt, G1|].
    intros u Hu. apply filter_In in Hu as [_ Hu]. apply memZ_In, in_map_iff in Hu as (e & <- & He).
    apply (flatten_ok n tr Tr trI ET) in He as (_ & _ & He). apply C in He as [_ He]. apply in_combine_l in He. exact He.
  - rewrite Eg. eexists. reflexivity.
Qed.

Section Built.
Variables (tsort : list event -> list event) (sched : list Sched.instant).
Hypothesis (Hts : is_argsort tsort) (Hb : build_events_matrix tsort up bc bc bc tr os isseq first mf = Ok sched).

Lemma built_exact : exact_schedule true up bc bc bc tr sched.
Proof.
  rewrite <- flag_on. eapply exact_schedule_build; [exact Hts| |exact Hb]. intros _ o Ho. rewrite repeat_length. auto.
Qed.
Lemma events_at i k ty : In i sched -> (In (k, ty) (in_evs i) <->
  (k < n)%nat /\ match ty with Up => In (in_t i) U | Tr => In (in_t i, k) (combine trT (cyc first (length trT) n)) | _ => In (in_t i) B end).
Proof.
  destruct built_exact as (E1 & _ & E3). intros Hi. rewrite <- requested_iff, <- E3. unfold scheduled. split; [eauto|].
  intros (j & Hj & Et & H). apply In_nth_error in Hi as [a Ha]. apply In_nth_error in Hj as [b Hb'].
  assert (a = b); [|congruence].
  apply (BufFacts.NoDup_nth_inj (map in_t sched) a b (in_t i)); [apply SyncFacts4.NoDup_sorted_lt, E1|now rewrite nth_error_map, Ha|rewrite nth_error_map, Hb'; cbn; congruence].
Qed.
Lemma exchanges_at i : In i sched -> (exchanges i = true <-> In (in_t i) B).
Proof.
  intros Hi. unfold exchanges. rewrite existsb_exists. split.
  - intros ([k []] & H1 & H2); try discriminate. apply (events_at i k Fu Hi) in H1. tauto.
  - intros H. exists (0%nat, Fu). split; [|reflexivity]. apply (events_at i 0 Fu Hi). split; [lia|exact H].
Qed.
Lemma sched_times t : In t (map in_t sched) <-> t = 0 \/ In t B.
Proof.
  destruct built_exact as (E1 & E2 & E3). split.
  - intros H. apply in_map_iff in H as (i & <- & Hi). destruct (E2 i Hi) as (A & _ & _). destruct (in_evs i) as [|[k ty] l] eqn:E; [congruence|].
    assert (H : In (k, ty) (in_evs i)) by (rewrite E; now left). apply (events_at i k ty Hi) in H as [_ H].
    destruct ty; auto. apply in_combine_l in H. destruct H as [<-|H]; auto.
  - intros H. assert (X : exists k ty, requested true up bc bc bc tr (mkEv t k ty)).
    { destruct H as [->|H].
      - destruct (tr_of 0 (or_introl eq_refl)) as (k & H1 & H2). exists k, Tr. apply requested_iff. auto.
      - exists 0%nat, Bc. apply requested_iff. auto. }
    destruct X as (k & ty & X). apply E3 in X as (i & Hi & <- & _). apply in_map, Hi.
Qed.
Lemma formed_count t : SchedSpec.trees_formed sched t = length (filter (fun u => u <=? t) trT).
Proof.
  destruct built_exact as (E1 & E2 & E3). rewrite trees_formed_length.
  rewrite <- (combine_filter_length (fun u => u <=? t) trT (cyc first (length trT) n)) by now rewrite cyc_length.
  apply Permutation_length, NoDup_Permutation.
  - apply tr_events_NoDup; [exact E1|]. intros i Hi. apply E2, Hi.
  - apply NoDup_filter, combine_NoDup, trT_NoDup.
  - intros [u k]. rewrite tr_events_In, E3, requested_iff, filter_In. cbn [fst]. split.
    + intros (H1 & _ & H2). split; [exact H2|lia].
    + intros (H1 & H2). split; [lia|]. split; [|exact H1].
      apply in_combine_r in H1. apply In_nth_error in H1 as [i Hi]. assert (L : (i < length trT)%nat) by (rewrite <- (cyc_length first (length trT) n); apply nth_error_Some; congruence).
      rewrite cyc_nth in Hi by exact L. injection Hi as <-. apply Nat.mod_upper_bound. lia.
Qed.
Lemma formed_until_count t : formed_until tr t = length (filter (fun u => u <=? t) trT).
Proof.
  destruct tr_mask as [A C]. unfold formed_until. apply same_set_length; [apply NoDup_nodup|apply NoDup_filter, trT_NoDup|].
  intros u. rewrite nodup_In, !filter_In. apply and_iff_compat_r. rewrite in_concat. split.
  - intros (l & Hl & Hu). apply In_nth_error in Hl as [k Hk]. assert (X : listed tr k u) by (exists l; auto). apply C in X as [_ X]. apply in_combine_l in X. exact X.
  - intros H. destruct (tr_of u H) as (k & H1 & H2). destruct (proj2 (C k u) (conj H1 H2)) as (l & H3 & H4). exists l. split; [eapply nth_error_In, H3|exact H4].
Qed.
Lemma built_regular nbrs_of tree_of ordering_of roots : trees_over n nbrs_of tree_of ordering_of ->
  os = map ordering_of roots -> (forall r, In r roots -> (r < n)%nat) ->
  regular n (map tree_of roots) 0 sched.
Proof.
  intros HT Eos Hr. destruct built_exact as (E1 & E2 & E3). apply regular_intro. intros pre i post E. cbv zeta.
  assert (Hi : In i sched) by (rewrite E, in_app_iff; cbn; auto). destruct (E2 i Hi) as (N1 & N2 & N3).
  split; [exact N3|].
  assert (HC : length (filter is_tr (flat_map in_evs (pre ++ [i]))) = length (filter (fun u => u <=? in_t i) trT)).
  { rewrite <- formed_count. unfold SchedSpec.trees_formed. rewrite (filter_le_split sched pre i post E1 E). reflexivity. }
  rewrite Nat.add_0_l, HC.
  assert (Hlen : (length roots = length trT)%nat) by (rewrite <- Hos, Eos, map_length; reflexivity).
  split.
  - unfold InNetSpec.trees_formed. fold is_tr. destruct (filter is_tr (in_evs i)) as [|a [|b l]] eqn:EF; [cbn; lia|cbn; lia|exfalso].
    assert (G : NoDup (filter is_tr (in_evs i))) by now apply NoDup_filter. rewrite EF in G.
    assert (Q : forall e, In e (filter is_tr (in_evs i)) -> exists k, e = (k, Tr) /\ In (in_t i, k) (combine trT (cyc first (length trT) n))).
    { intros [k ty] He. apply filter_In in He as [He1 He2]. destruct ty; try discriminate. exists k. split; [reflexivity|]. apply (events_at i k Tr Hi) in He1. tauto. }
    destruct (Q a) as (k & -> & Ha); [rewrite EF; now left|]. destruct (Q b) as (k' & -> & Hb'); [rewrite EF; right; now left|].
    rewrite (tr_fun _ _ _ Ha Hb') in G. inversion G as [|? ? G1 _]; subst. apply G1. now left.
  - assert (P0 : (0 < length (filter (fun u : Z => (u <=? in_t i)%Z) trT))%nat).
    { destruct (proj1 (sched_times (in_t i)) (in_map in_t _ _ Hi)) as [Ez|Hz]; cbn [filter].
      - replace (0 <=? in_t i) with true by lia. cbn; lia.
      - specialize (HB _ Hz). replace (0 <=? in_t i) with true by lia. cbn; lia. }
    destruct (proj1 (sched_times (in_t i)) (in_map in_t _ _ Hi)) as [Ez|Hz].
    + left. exists first. split.
      * assert (Q : forall e, In e (in_evs i) -> e = (first, Tr)).
        { intros [k ty] He. apply (events_at i k ty Hi) in He as [Hk He]. rewrite Ez in He.
          destruct ty; try (specialize (HB _ He); lia); [|specialize (HB _ (HUB _ He)); lia]. now rewrite (tr_zero k He). }
        destruct (in_evs i) as [|a [|b l]]; [congruence|f_equal; apply Q; now left|exfalso].
        inversion N2 as [|? ? G1 _]; subst. apply G1. left. rewrite (Q a), (Q b); cbn; auto.
      * rewrite map_length, Hlen. apply filter_length_le.
    + right. split; [exact P0|].
      destruct (tree_in_force_build tsort up bc bc bc tr os isseq first mf sched Hts flag_on) with (i := i) as (o & Ho & Hso).
      * rewrite repeat_length. apply tr_mask.
      * intros o Ho. eapply Permutation_NoDup; [symmetry; apply Hfull, Ho|apply seq_NoDup].
      * exact Hb. * exact Hi. * rewrite formed_until_count. lia.
      * rewrite formed_until_count in Ho. rewrite Eos, nth_error_map in Ho. rewrite nth_error_map.
        destruct (nth_error roots (length (filter (fun u => u <=? in_t i) trT) - 1)) as [r|] eqn:Er; [|discriminate]. cbn [option_map] in *.
        assert (Hrn : (r < n)%nat) by (apply Hr; eapply nth_error_In, Er). destruct (HT r Hrn) as (T1 & st & T2 & T3).
        assert (Eo : ordering_of r = o) by (injection Ho as Ho; exact Ho). exists (nbrs_of r), r, st, o. split; [exact T1|]. split; [exact Hrn|]. split; [rewrite <- Eo; exact T2|]. split; [f_equal; exact T3|]. split; [exact Hso|]. split; [exact N2|].
        split.
        -- intros k Hk. repeat split; apply (events_at i k _ Hi); auto.
        -- intros [k ty] He. apply (events_at i k ty Hi) in He. tauto.
Qed.
End Built.
End Uniform.
