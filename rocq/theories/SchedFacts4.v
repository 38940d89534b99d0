(** Lemmas behind SchedProps.v. *)
From Verif Require Import Base BaseFacts Sched SchedSpec SchedFacts SchedFacts2 SchedFacts3 InstSpec InstFacts TreeRootFacts.
Open Scope Z_scope.

Lemma ti_flag_true up fuse : ti_flag up fuse = true <-> tree_mode up fuse.
Proof.
  unfold ti_flag, tree_mode. rewrite andb_true_iff, existsb_exists, Nat.eqb_eq. split.
  - intros [[l [Hl Hn]] E]. split; [exact E|]. exists l. split; [exact Hl|]. destruct l; [discriminate | congruence].
  - intros [E [l [Hl Hn]]]. split; [|exact E]. exists l. split; [exact Hl|]. destruct l; [congruence | reflexivity].
Qed.

Lemma ti_flag_false up fuse : ti_flag up fuse = false <-> ~ tree_mode up fuse.
Proof. rewrite <- ti_flag_true. destruct (ti_flag up fuse); split; intros; congruence || tauto. Qed.

Lemma build_empty tsort bc fuse re tr os isseq first mf sched :
  is_argsort tsort ->
  build_events_matrix tsort [] bc fuse re tr os isseq first mf = Ok sched ->
  (ti_flag [] fuse = true -> forall o, In o os -> full_ordering 0 o) -> sched = [].
Proof.
  intros Hs H Ho. destruct (exact_schedule_build _ _ _ _ _ _ _ _ _ _ _ Hs Ho H) as [_ [H1 H2]].
  destruct sched as [|i s]; [reflexivity|]. destruct (H1 i (or_introl eq_refl)) as [Hne _].
  destruct (in_evs i) as [|[k ty] es] eqn:E; [congruence|].
  assert (HS : scheduled (i :: s) (in_t i) k ty) by (exists i; split; [left; reflexivity | split; [reflexivity | rewrite E; left; reflexivity]]).
  apply H2 in HS. destruct HS as [HS _]. simpl in HS. lia.
Qed.

Lemma performed_carries i : performed i <> [] -> carries_up i = true.
Proof.
  intros H. unfold performed in H. rewrite carries_is_up.
  destruct (filter _ (combine (in_evs i) (in_byp i))) as [|[[k ty] b] l] eqn:E; [simpl in H; congruence|].
  assert (Hin : In ((k, ty), b) (filter (fun p => match snd (fst p) with Up => negb (snd p) | _ => false end)
              (combine (in_evs i) (in_byp i)))) by (rewrite E; left; reflexivity).
  apply filter_In in Hin. destruct Hin as [Hc Hb]. apply in_combine_l in Hc. simpl in Hb.
  apply existsb_exists. exists (k, ty). split; [exact Hc|]. unfold is_up. apply evtype_eqb_eq. simpl.
  destruct ty; congruence.
Qed.

Lemma carries_ex i : carries_up i = true <-> exists k, In (k, Up) (in_evs i).
Proof.
  rewrite carries_is_up, existsb_exists. split.
  - intros [[k ty] [H1 H2]]. unfold is_up in H2. apply evtype_eqb_eq in H2. simpl in H2. subst. eauto.
  - intros [k Hk]. exists (k, Up). split; [exact Hk | reflexivity].
Qed.

Lemma attach_pre isseq n mf st gs pre post :
  attach isseq n mf st gs = pre ++ post -> exists gs1, pre = attach isseq n mf st gs1 /\ incl gs1 gs.
Proof.
  intros H. destruct post as [|i post].
  - rewrite app_nil_r in H. exists gs. split; [auto | apply incl_refl].
  - destruct (attach_split _ _ _ _ _ _ _ _ H) as [gs1 [g [gs2 [-> [-> _]]]]].
    exists gs1. split; [reflexivity|]. intros x Hx. apply in_or_app; left; exact Hx.
Qed.

(** every instant that is not sequential performs every [mf]-th time *)
Lemma idle_mod n mf first gs :
  (0 < n)%nat -> (forall g, In g gs -> NoDup (snd g)) ->
  idle (rev (attach false n mf (init_byp first) gs)) =
  count_up (attach false n mf (init_byp first) gs) mod (Z.max 1 mf) /\
  (forall pre i post, attach false n mf (init_byp first) gs = pre ++ i :: post ->
    (performed i <> [] <-> carries_up i = true /\ count_up (pre ++ [i]) mod (Z.max 1 mf) = 0)).
Proof.
  intros Hn. induction gs as [|g gs IH] using rev_ind; intros Hnd.
  - split; [reflexivity|]. intros pre i post H. destruct pre; discriminate.
  - destruct (IH (fun h Hh => Hnd h (in_or_app _ _ _ (or_introl Hh)))) as [I1 I2].
    assert (Hlast : forall i, i = inst_of false n mf (run false n mf (init_byp first) gs) g ->
      (performed i <> [] <-> carries_up i = true /\ count_up (attach false n mf (init_byp first) gs ++ [i]) mod (Z.max 1 mf) = 0)).
    { intros i ->. set (i := inst_of false n mf _ g).
      pose proof (bypass_exact false n mf first (gs ++ [g]) (attach false n mf (init_byp first) gs) i [] Hn Hnd (attach_snoc _ _ _ _ _ _)) as HB.
      assert (Hc : carries_up i = true -> count_up (attach false n mf (init_byp first) gs ++ [i]) = count_up (attach false n mf (init_byp first) gs) + 1).
      { intros Hc. unfold count_up. rewrite filter_app, app_length. simpl. rewrite Hc. simpl. lia. }
      assert (Hdue : carries_up i = true -> (mf <= idle (rev (attach false n mf (init_byp first) gs)) + 1 <-> count_up (attach false n mf (init_byp first) gs ++ [i]) mod (Z.max 1 mf) = 0)).
      { intros Hcc. rewrite (Hc Hcc), I1. set (c := count_up _). set (M := Z.max 1 mf).
        assert (HM : 0 < M) by lia. pose proof (Z.mod_pos_bound c M HM).
        destruct (Z.eq_dec (c mod M) (M - 1)) as [E|E].
        - assert (E1 : (c + 1) mod M = 0). { rewrite Z.add_mod by lia. rewrite E. destruct (Z.eq_dec M 1) as [->|]; [apply Z.mod_1_r|]. rewrite (Z.mod_small 1) by lia. replace (M - 1 + 1) with M by lia. apply Z.mod_same; lia. }
          split; [intros _; exact E1 | intros _; lia].
        - assert (E1 : (c + 1) mod M = c mod M + 1). { rewrite Z.add_mod by lia. rewrite (Z.mod_small 1) by lia. apply Z.mod_small; lia. }
          rewrite E1. split; intros; lia. }
      split.
      - intros Hp. pose proof (performed_carries _ Hp) as Hcc. split; [exact Hcc|]. apply Hdue; [exact Hcc|].
        destruct (performed i) as [|k l] eqn:E; [congruence|]. destruct (proj1 (HB k)) as [_ [H1 _]]; [left; reflexivity | exact H1].
      - intros [Hcc Hm] E. apply Hdue in Hm; [|exact Hcc]. destruct (proj1 (carries_ex _) Hcc) as [k Hk].
        assert (Hin : In k (performed i)) by (apply HB; split; [exact Hk | split; [exact Hm | discriminate]]).
        rewrite E in Hin. destruct Hin. }
    split.
    + rewrite attach_snoc. set (i := inst_of false n mf (run false n mf (init_byp first) gs) g).
      specialize (Hlast i eq_refl). rewrite rev_app_distr. simpl rev. cbn [app idle].
      set (A := attach false n mf (init_byp first) gs) in *.
      assert (HM : 0 < Z.max 1 mf) by lia.
      assert (Hsum : count_up (A ++ [i]) = count_up A + (if carries_up i then 1 else 0)).
      { unfold count_up. rewrite filter_app, app_length. simpl. destruct (carries_up i); simpl; lia. }
      destruct (performed i) as [|k l] eqn:Ep.
      * destruct (carries_up i) eqn:Ec.
        -- assert (Hn0 : count_up (A ++ [i]) mod Z.max 1 mf <> 0) by (intros E; apply (proj2 Hlast); auto).
           rewrite I1. rewrite Hsum in *. pose proof (Z.mod_pos_bound (count_up A) (Z.max 1 mf) HM).
           destruct (Z.eq_dec (count_up A mod Z.max 1 mf) (Z.max 1 mf - 1)) as [E|E].
           ++ exfalso. apply Hn0. rewrite Z.add_mod by lia. rewrite E.
              destruct (Z.eq_dec (Z.max 1 mf) 1) as [->|]; [apply Z.mod_1_r|].
              rewrite (Z.mod_small 1) by lia. replace (Z.max 1 mf - 1 + 1) with (Z.max 1 mf) by lia. apply Z.mod_same; lia.
           ++ rewrite (Z.add_mod (count_up A)) by lia. rewrite (Z.mod_small 1) by lia. rewrite (Z.mod_small (count_up A mod Z.max 1 mf + 1)) by lia. lia.
        -- rewrite I1, Hsum. rewrite Z.add_0_r; lia.
      * symmetry. apply Hlast. congruence.
    + intros pre i post H. rewrite attach_snoc in H.
      destruct post as [|j post].
      * apply app_inj_tail in H. destruct H as [<- <-]. apply Hlast. reflexivity.
      * destruct (exists_last (l := j :: post) ltac:(discriminate)) as [post' [z Ez]]. rewrite Ez in H.
        replace (pre ++ i :: post' ++ [z]) with ((pre ++ i :: post') ++ [z]) in H by (rewrite <- app_assoc; reflexivity).
        apply app_inj_tail in H. destruct H as [H _]. apply (I2 _ _ _ H).
Qed.

(** ** Statements at the level of the scheduler's entry points *)



Section Entry.
  Variables (tsort : list event -> list event) (up bc fuse re tr : list (list Z)) (os : list ordering).
  Variables (isseq : bool) (first : nat) (mf : Z) (sched : list instant).
  Hypothesis Hs : is_argsort tsort.
  Hypothesis Ho : full_if_tree up fuse os.
  Hypothesis H : build_events_matrix tsort up bc fuse re tr os isseq first mf = Ok sched.

  Let Ho' : ti_flag up fuse = true -> forall o, In o os -> full_ordering (length up) o.
  Proof. intros E. apply Ho. apply ti_flag_true; exact E. Qed.

  Lemma entry_gs : exists gs, sched = attach isseq (length up) mf (init_byp first) gs /\
             (forall g, In g gs -> NoDup (snd g)) /\ (sched <> [] -> (0 < length up)%nat).
  Proof.
    destruct (build_groups_nodup _ _ _ _ _ _ _ _ _ _ _ Hs Ho' H) as [gs [E Hg]].
    exists gs. split; [exact E|]. split; [exact Hg|]. intros Hne.
    destruct (length up) eqn:El; [|lia]. exfalso. apply Hne.
    apply length_zero_iff_nil in El. pose proof Ho' as Ho2. pose proof H as H'. rewrite El in H', Ho2.
    eapply build_empty; [exact Hs | exact H' | exact Ho2].
  Qed.

  Lemma entry_round_robin :
    isseq = true ->
    updates sched = map (fun i => (first + i) mod length up)%nat (seq 0 (length (updates sched))) /\
    (forall i, In i sched -> (length (performed i) <= 1)%nat).
  Proof.
    intros Hq. destruct entry_gs as [gs [E [Hg Hn]]].
    destruct sched as [|i0 s0] eqn:Es; [split; [reflexivity | intros i []]|].
    specialize (Hn ltac:(discriminate)). split.
    - rewrite E. apply round_robin; assumption.
    - intros i Hi. rewrite E in Hi. eapply performed_one; eassumption.
  Qed.

  Lemma entry_no_skip pre i post :
    sched = pre ++ i :: post ->
    forall k, In k (performed i) <->
      In (k, Up) (in_evs i) /\ mf <= idle (rev pre) + 1 /\
      (isseq = true -> k = (first + length (updates pre)) mod length up)%nat.
  Proof.
    intros Hsp k. destruct entry_gs as [gs [E [Hg Hn]]].
    assert (Hn0 : (0 < length up)%nat) by (apply Hn; rewrite Hsp; destruct pre; discriminate).
    rewrite E in Hsp. rewrite (bypass_exact _ _ _ _ _ _ _ _ Hn0 Hg Hsp k).
    assert (Hz : (Z.of_nat first + Z.of_nat (length (updates pre))) mod Z.of_nat (length up) =
                 Z.of_nat ((first + length (updates pre)) mod length up)) by (rewrite Nat2Z.inj_mod by lia; f_equal; lia).
    rewrite Hz. split; intros [A [B C]]; (split; [exact A | split; [exact B | intros D; specialize (C D); lia]]).
  Qed.

  Lemma entry_spacing a x b y c :
    sched = a ++ x :: b ++ y :: c -> performed x <> [] -> performed y <> [] ->
    mf <= count_up b + 1.
  Proof.
    intros E Hx Hy. destruct (performed y) as [|k l] eqn:Ek; [congruence|].
    replace (a ++ x :: b ++ y :: c) with ((a ++ x :: b) ++ y :: c) in E by (rewrite <- app_assoc; reflexivity).
    destruct (proj1 (entry_no_skip _ _ _ E k)) as [_ [Hm _]]; [rewrite Ek; left; reflexivity|].
    pose proof (idle_after a x b Hx). lia.
  Qed.

  Lemma entry_first a y c :
    sched = a ++ y :: c -> performed y <> [] -> mf <= count_up a + 1.
  Proof.
    intros E Hy. destruct (performed y) as [|k l] eqn:Ek; [congruence|].
    destruct (proj1 (entry_no_skip _ _ _ E k)) as [_ [Hm _]]; [rewrite Ek; left; reflexivity|].
    pose proof (idle_le_count (rev a)) as Hc.
    assert (count_up (rev a) = count_up a).
    { unfold count_up. f_equal. clear. induction a as [|i a IH]; [reflexivity|]. simpl rev.
      rewrite filter_app, app_length, IH. simpl. destruct (carries_up i); simpl; lia. }
    lia.
  Qed.

  Lemma entry_every pre i post :
    isseq = false -> sched = pre ++ i :: post ->
    (performed i <> [] <-> carries_up i = true /\ count_up (pre ++ [i]) mod (Z.max 1 mf) = 0) /\
    (performed i <> [] -> forall k, In k (performed i) <-> In (k, Up) (in_evs i)).
  Proof.
    intros Hq E. split.
    - destruct entry_gs as [gs [Eg [Hg Hn]]]. rewrite Hq in Eg.
      assert (Hn0 : (0 < length up)%nat) by (apply Hn; rewrite E; destruct pre; discriminate).
      destruct (idle_mod (length up) mf first gs Hn0 Hg) as [_ I]. apply (I pre i post). rewrite <- Eg; exact E.
    - intros Hp k. rewrite (entry_no_skip _ _ _ E k). split; [tauto|]. intros Hin. split; [exact Hin|].
      destruct (performed i) as [|k0 l] eqn:Ek; [congruence|].
      destruct (proj1 (entry_no_skip _ _ _ E k0)) as [_ [Hm _]]; [rewrite Ek; left; reflexivity|].
      split; [exact Hm | congruence].
  Qed.
End Entry.

Lemma fc_order_in_schedule tsort up bc fuse re tr os isseq first mf sched i :
  is_argsort tsort -> ~ tree_mode up fuse ->
  build_events_matrix tsort up bc fuse re tr os isseq first mf = Ok sched ->
  In i sched -> StronglySorted fc_before (in_evs i).
Proof.
  intros Hs Hti H Hi. apply ti_flag_false in Hti.
  destruct (build_inv _ _ _ _ _ _ _ _ _ _ _ Hs H)
    as [upI [bcI [fuI [reI [trI [gs [_ [_ [_ [_ [_ [Hg ->]]]]]]]]]]]].
  rewrite Hti in Hg.
  assert (Hi' : In (in_t i, in_evs i) gs) by (apply (attach_In isseq (length up) mf (init_byp first)); exists i; split; [exact Hi | split; reflexivity]).
  clear - Hg Hi'. revert gs Hg Hi'. generalize init_tree.
  set (l := groups _ _). clearbody l. induction l as [|[t g] l IH]; intros st gs Hg Hi; simpl in Hg.
  - inversion Hg; subst. destruct Hi.
  - destruct (bind_ok _ _ _ Hg) as [r [Hr E]]. inversion E; subst; clear E Hg.
    destruct Hi as [Hi|Hi]; [|eapply IH; eauto].
    injection Hi as _ Hi. rewrite <- Hi. apply (fc_sorted _ []).
Qed.

Lemma exact_fc tsort up bc fuse re tr os isseq first mf :
  is_argsort tsort -> ~ tree_mode up fuse -> length bc = length up ->
  exists sched, build_events_matrix tsort up bc fuse re tr os isseq first mf = Ok sched /\
                exact_schedule false up bc fuse re tr sched.
Proof.
  intros Hs Hti Hl. apply ti_flag_false in Hti.
  destruct (build_fc_total tsort up bc fuse re tr os isseq first mf Hs Hti ltac:(right; lia)) as [s E].
  exists s. split; [exact E|]. rewrite <- Hti.
  apply (exact_schedule_build _ _ _ _ _ _ _ _ _ _ _ Hs ltac:(rewrite Hti; discriminate) E).
Qed.
