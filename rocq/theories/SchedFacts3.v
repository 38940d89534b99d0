(** Update bypassing and trees in force along a schedule. *)
From Verif Require Import Base BaseFacts Sched SchedSpec SchedFacts SchedFacts2.
Open Scope Z_scope.

Section Byp.
  Variables (isseq : bool) (n : nat) (mf : Z).

  Definition run (st : bypst) (gs : list (Z * list (nat * evtype))) : bypst :=
    fold_left (fun s g => fst (bypass_step isseq n mf s (snd g))) gs st.

  Definition inst_of (st : bypst) (g : Z * list (nat * evtype)) : instant :=
    mkInst (fst g) (snd g) (snd (bypass_step isseq n mf st (snd g))).

  Lemma attach_snoc st gs g :
    attach isseq n mf st (gs ++ [g]) = attach isseq n mf st gs ++ [inst_of (run st gs) g].
  Proof.
    revert st; induction gs as [|[t h] gs IH]; intros st; simpl.
    - destruct g as [t g]. unfold inst_of; simpl. destruct (bypass_step isseq n mf st g); reflexivity.
    - unfold run; simpl. destruct (bypass_step isseq n mf st h) as [st' byp] eqn:E. simpl.
      rewrite IH. reflexivity.
  Qed.

  Lemma attach_split st gs pre i post :
    attach isseq n mf st gs = pre ++ i :: post ->
    exists gs1 g gs2, gs = gs1 ++ g :: gs2 /\ pre = attach isseq n mf st gs1 /\
                      i = inst_of (run st gs1) g.
  Proof.
    revert st pre; induction gs as [|[t h] gs IH]; intros st pre H; simpl in H.
    - destruct pre; discriminate.
    - destruct (bypass_step isseq n mf st h) as [st' byp] eqn:E. destruct pre as [|p pre]; simpl in H.
      + inversion H; subst. exists [], (t, h), gs. repeat split. unfold inst_of, run; simpl. rewrite E. reflexivity.
      + inversion H; subst. destruct (IH _ _ H2) as [gs1 [g [gs2 [-> [-> ->]]]]].
        exists ((t, h) :: gs1), g, gs2. repeat split; [simpl; rewrite E; reflexivity|].
        unfold run; simpl. rewrite E. reflexivity.
  Qed.

  Lemma carries_is_up i : carries_up i = existsb is_up (in_evs i).
  Proof. unfold carries_up. induction (in_evs i) as [|[k ty] l IH]; simpl; [reflexivity|].
         rewrite IH. destruct ty; reflexivity. Qed.

  Lemma performed_map t g (f : nat * evtype -> bool) :
    performed (mkInst t g (map f g)) = map fst (filter (fun e => is_up e && negb (f e)) g).
  Proof.
    unfold performed; simpl. induction g as [|[k ty] g IH]; simpl; [reflexivity|].
    unfold is_up in *. destruct ty; simpl; try exact IH.
    destruct (f (k, Up)); simpl; [exact IH | f_equal; exact IH].
  Qed.

  Lemma performed_none t g : existsb is_up g = false -> performed (mkInst t g (map (fun _ => false) g)) = [].
  Proof.
    intros H. rewrite performed_map. induction g as [|e g IH]; simpl in *; [reflexivity|].
    apply orb_false_iff in H. destruct H as [H1 H2]. rewrite H1. simpl. apply IH; exact H2.
  Qed.

  Lemma allbyp_performed t g (f : nat * evtype -> bool) :
    forallb (fun p : (nat * evtype) * bool => negb (is_up (fst p)) || snd p) (combine g (map f g)) = true
    <-> performed (mkInst t g (map f g)) = [].
  Proof.
    rewrite performed_map. induction g as [|e g IH]; simpl; [tauto|].
    destruct (is_up e); simpl.
    - destruct (f e); simpl; [exact IH | split; [discriminate | discriminate]].
    - exact IH.
  Qed.

  (** the exact condition for an update event to be performed *)
  Definition due (st : bypst) (k : nat) : bool :=
    negb (nFrames st + 1 <? mf) &&
    (negb isseq || (Z.of_nat k =? (lastUpNode st + 1) mod Z.of_nat n)).

  Lemma performed_inst st g :
    performed (inst_of st g) = map fst (filter (fun e => is_up e && due st (fst e)) (snd g)).
  Proof.
    unfold inst_of, bypass_step. destruct (existsb is_up (snd g)) eqn:E; simpl.
    - rewrite performed_map. f_equal. apply filter_ext. intros [k ty]. unfold bypass_one, due; simpl.
      destruct ty; simpl; try reflexivity.
      destruct (nFrames st + 1 <? mf); simpl; [reflexivity|]. destruct isseq; simpl; [|reflexivity].
      rewrite negb_involutive. reflexivity.
    - rewrite performed_none by exact E.
      symmetry. induction (snd g) as [|e l IH]; simpl in *; [reflexivity|].
      apply orb_false_iff in E. destruct E as [E1 E2]. rewrite E1; simpl. apply IH; exact E2.
  Qed.

  Lemma nFrames_step st g :
    nFrames (fst (bypass_step isseq n mf st (snd g))) =
    match performed (inst_of st g) with
    | _ :: _ => 0
    | [] => (if carries_up (inst_of st g) then 1 else 0) + nFrames st
    end.
  Proof.
    rewrite carries_is_up. unfold inst_of at 2. simpl in_evs. unfold bypass_step at 1.
    destruct (existsb is_up (snd g)) eqn:E; simpl.
    - set (f := bypass_one isseq n mf (lastUpNode st) (nFrames st + 1)).
      pose proof (allbyp_performed (fst g) (snd g) f) as Hap.
      unfold inst_of, bypass_step. rewrite E. simpl. fold f.
      destruct (performed (mkInst (fst g) (snd g) (map f (snd g)))) eqn:EP.
      + rewrite (proj2 Hap eq_refl). simpl. lia.
      + destruct (forallb _ _) eqn:EF; [|reflexivity].
        assert (Hc := proj1 Hap eq_refl). discriminate.
    - unfold inst_of, bypass_step. rewrite E. simpl. rewrite performed_none by exact E. reflexivity.
  Qed.

  Lemma last_up_fold st nFr g acc :
    fold_left (fun acc (e : nat * evtype) =>
      match snd e with
      | Up => if nFr <? mf then acc else if isseq then
                if Z.of_nat (fst e) =? (lastUpNode st + 1) mod (Z.of_nat n)
                then Z.of_nat (fst e) else acc else acc
      | _ => acc
      end) g acc =
    if negb (nFr <? mf) && isseq &&
       existsb (fun e => is_up e && (Z.of_nat (fst e) =? (lastUpNode st + 1) mod (Z.of_nat n))) g
    then (lastUpNode st + 1) mod (Z.of_nat n) else acc.
  Proof.
    revert acc; induction g as [|[k ty] g IH]; intros acc; simpl.
    - rewrite andb_false_r. reflexivity.
    - rewrite IH. destruct (nFr <? mf); simpl; [destruct ty; reflexivity|].
      destruct isseq; simpl; [|destruct ty; reflexivity].
      destruct ty; simpl; try reflexivity.
      destruct (Z.eqb_spec (Z.of_nat k) ((lastUpNode st + 1) mod Z.of_nat n)) as [E|E]; simpl; [|reflexivity].
      rewrite E. destruct (existsb _ g); reflexivity.
  Qed.

  Lemma lastUp_step st g :
    isseq = true -> NoDup (snd g) ->
    let nxt := (lastUpNode st + 1) mod Z.of_nat n in
    (performed (inst_of st g) = [] /\
     lastUpNode (fst (bypass_step isseq n mf st (snd g))) = lastUpNode st) \/
    (performed (inst_of st g) = [Z.to_nat nxt] /\ 0 <= nxt /\
     lastUpNode (fst (bypass_step isseq n mf st (snd g))) = nxt).
  Proof.
    intros Hseq Hn nxt. rewrite performed_inst.
    unfold due. rewrite Hseq. cbn [negb orb]. fold nxt.
    assert (HL : lastUpNode (fst (bypass_step isseq n mf st (snd g))) =
       if negb (nFrames st + 1 <? mf) &&
          existsb (fun e => is_up e && (Z.of_nat (fst e) =? nxt)) (snd g)
       then nxt else lastUpNode st).
    { unfold bypass_step. destruct (existsb is_up (snd g)) eqn:E; simpl.
      - unfold last_up_updated. rewrite last_up_fold. rewrite Hseq, andb_true_r. reflexivity.
      - assert (Hx : existsb (fun e => is_up e && (Z.of_nat (fst e) =? nxt)) (snd g) = false).
        { clear Hn. induction (snd g) as [|e l IH]; simpl in *; [reflexivity|].
          apply orb_false_iff in E. destruct E as [E1 E2]. rewrite E1; simpl. apply IH; exact E2. }
        rewrite Hx, andb_false_r. reflexivity. }
    rewrite Hseq in HL. rewrite HL. destruct (nFrames st + 1 <? mf); cbn [negb andb].
    { left. split; [|reflexivity]. clear. induction (snd g) as [|e l IH]; simpl; [reflexivity|].
      rewrite andb_false_r. exact IH. }
    clear HL. induction (snd g) as [|[k ty] l IH]; cbn [filter existsb map].
    { left; auto. }
    inversion Hn as [|? ? Hk Hn']; subst.
    destruct (is_up (k, ty)) eqn:Eu; cbn [andb orb fst]; [|apply IH; exact Hn'].
    destruct (Z.eqb_spec (Z.of_nat k) nxt) as [E|E]; cbn [orb]; [|apply IH; exact Hn'].
    right. unfold is_up in Eu. apply evtype_eqb_eq in Eu. simpl in Eu. subst ty.
    split; [|split; [lia | reflexivity]]. cbn [map fst].
    f_equal; [lia|].
    destruct (filter _ l) as [|[k' ty'] l'] eqn:EF; [reflexivity|].
    exfalso. assert (Hin : In (k', ty') (filter (fun e => is_up e && (Z.of_nat (fst e) =? nxt)) l)) by (rewrite EF; left; reflexivity).
    apply filter_In in Hin. destruct Hin as [Hin Hb]. apply andb_prop in Hb. destruct Hb as [Hb1 Hb2].
    unfold is_up in Hb1. apply evtype_eqb_eq in Hb1. simpl in *. apply Z.eqb_eq in Hb2.
    subst ty'. assert (k' = k) by lia. subst. contradiction.
  Qed.

  Lemma run_snoc st gs g : run st (gs ++ [g]) = fst (bypass_step isseq n mf (run st gs) (snd g)).
  Proof. unfold run. rewrite fold_left_app. reflexivity. Qed.

  Lemma run_idle first gs :
    nFrames (run (init_byp first) gs) = idle (rev (attach isseq n mf (init_byp first) gs)).
  Proof.
    induction gs as [|g gs IH] using rev_ind; [reflexivity|].
    rewrite run_snoc, attach_snoc, rev_app_distr. simpl rev. cbn [app idle].
    rewrite nFrames_step, IH. reflexivity.
  Qed.

  Lemma run_last first gs :
    isseq = true -> (0 < n)%nat -> (forall g, In g gs -> NoDup (snd g)) ->
    (lastUpNode (run (init_byp first) gs) + 1) mod Z.of_nat n =
    (Z.of_nat first + Z.of_nat (length (updates (attach isseq n mf (init_byp first) gs)))) mod Z.of_nat n.
  Proof.
    intros Hseq Hn. induction gs as [|g gs IH] using rev_ind; intros Hnd.
    - simpl. f_equal. lia.
    - rewrite run_snoc, attach_snoc. unfold updates. rewrite flat_map_app, app_length.
      cbn [flat_map]. rewrite app_nil_r.
      fold (updates (attach isseq n mf (init_byp first) gs)).
      assert (Hg : NoDup (snd g)) by (apply Hnd, in_or_app; right; left; reflexivity).
      assert (IH' := IH (fun h Hh => Hnd h (in_or_app _ _ _ (or_introl Hh)))).
      destruct (lastUp_step (run (init_byp first) gs) g Hseq Hg) as [[E1 E2]|[E1 [_ E2]]]; rewrite E1, E2.
      + simpl length. rewrite Nat.add_0_r. exact IH'.
      + rewrite IH'. simpl length.
        rewrite Zplus_mod_idemp_l. f_equal. lia.
  Qed.

  (** exact characterisation of the bypass flags *)
  Lemma bypass_exact first gs pre i post :
    (0 < n)%nat -> (forall g, In g gs -> NoDup (snd g)) ->
    attach isseq n mf (init_byp first) gs = pre ++ i :: post ->
    forall k, In k (performed i) <->
      In (k, Up) (in_evs i) /\ mf <= idle (rev pre) + 1 /\
      (isseq = true -> Z.of_nat k = (Z.of_nat first + Z.of_nat (length (updates pre))) mod Z.of_nat n).
  Proof.
    intros Hn Hnd H k. destruct (attach_split _ _ _ _ _ H) as [gs1 [g [gs2 [-> [-> ->]]]]].
    rewrite performed_inst. rewrite in_map_iff. unfold due. rewrite run_idle.
    assert (Hnd1 : forall h, In h gs1 -> NoDup (snd h)) by (intros h Hh; apply Hnd, in_or_app; left; exact Hh).
    split.
    - intros [[k' ty] [E Hin]]. simpl in E; subst k'. apply filter_In in Hin. destruct Hin as [Hin Hb].
      apply andb_prop in Hb. destruct Hb as [Hb1 Hb2]. unfold is_up in Hb1. apply evtype_eqb_eq in Hb1.
      simpl in Hb1; subst ty. apply andb_prop in Hb2. destruct Hb2 as [Hb2 Hb3]. simpl in Hb3.
      split; [exact Hin|]. split; [lia|]. intros Hs. rewrite <- run_last by auto.
      rewrite Hs in Hb3 at 1. simpl in Hb3. lia.
    - intros [Hin [Hm Hs]]. exists (k, Up). split; [reflexivity|]. apply filter_In. split; [exact Hin|].
      apply andb_true_intro. split; [reflexivity|]. apply andb_true_intro. split; [lia|].
      simpl. destruct isseq eqn:Es; simpl; [|reflexivity].
      rewrite <- Es. rewrite run_last by (rewrite ?Es; auto). rewrite Es. rewrite (Hs eq_refl) at 1.
      apply Z.eqb_refl.
  Qed.

  Lemma round_robin first gs :
    isseq = true -> (0 < n)%nat -> (forall g, In g gs -> NoDup (snd g)) ->
    updates (attach isseq n mf (init_byp first) gs) =
    map (fun i => (first + i) mod n)%nat
        (seq 0 (length (updates (attach isseq n mf (init_byp first) gs)))).
  Proof.
    intros Hseq Hn. induction gs as [|g gs IH] using rev_ind; intros Hnd; [reflexivity|].
    assert (Hg : NoDup (snd g)) by (apply Hnd, in_or_app; right; left; reflexivity).
    assert (Hnd' : forall h, In h gs -> NoDup (snd h)) by (intros h Hh; apply Hnd, in_or_app; left; exact Hh).
    rewrite attach_snoc. unfold updates. rewrite flat_map_app. cbn [flat_map]. rewrite app_nil_r.
    fold (updates (attach isseq n mf (init_byp first) gs)).
    assert (HR := run_last first gs Hseq Hn Hnd').
    destruct (lastUp_step (run (init_byp first) gs) g Hseq Hg) as [[E1 _]|[E1 [H0 _]]]; rewrite E1.
    - rewrite app_nil_r. apply IH; exact Hnd'.
    - rewrite app_length, seq_app, map_app. rewrite <- IH by exact Hnd'. f_equal.
      simpl. f_equal. rewrite HR.
      rewrite <- Nat2Z.inj_add, <- Nat2Z.inj_mod, Nat2Z.id. reflexivity.
  Qed.

  Lemma performed_one first gs i :
    isseq = true -> (forall g, In g gs -> NoDup (snd g)) ->
    In i (attach isseq n mf (init_byp first) gs) -> (length (performed i) <= 1)%nat.
  Proof.
    intros Hseq Hnd Hin. apply in_split in Hin. destruct Hin as [pre [post H]].
    destruct (attach_split _ _ _ _ _ H) as [gs1 [g [gs2 [-> [-> ->]]]]].
    assert (Hg : NoDup (snd g)) by (apply Hnd, in_or_app; right; left; reflexivity).
    destruct (lastUp_step (run (init_byp first) gs1) g Hseq Hg) as [[E1 _]|[E1 _]]; rewrite E1; simpl; lia.
  Qed.
End Byp.

Lemma idle_le_count past : idle past <= count_up past.
Proof.
  unfold count_up. induction past as [|i past IH]; simpl; [lia|].
  destruct (performed i); destruct (carries_up i); simpl length; lia.
Qed.

Lemma idle_after a x b :
  performed x <> [] -> idle (rev (a ++ x :: b)) <= count_up b.
Proof.
  intros Hx. unfold count_up. rewrite rev_app_distr. simpl rev. rewrite <- app_assoc. simpl app.
  rewrite <- (rev_involutive b) at 2. induction (rev b) as [|i l IH]; simpl.
  - destruct (performed x); [congruence | lia].
  - rewrite filter_app, app_length. simpl. destruct (performed i); destruct (carries_up i); simpl length; lia.
Qed.

(** trees in force *)
Lemma order_groups_tree trI os st gs gs' :
  StronglySorted Z.lt (map fst gs) ->
  (forall u, lastTreeInstant st = Some u -> Forall (fun t => u < t) (map fst gs)) ->
  order_groups true trI os st gs = Ok gs' ->
  forall i t g, nth_error gs i = Some (t, g) ->
  exists o, nth_error gs' i = Some (t, sort_simultaneous_events g true o) /\
    py_get os (treeCounter st +
       Z.of_nat (length (filter (fun u => memZ u trI) (firstn (S i) (map fst gs))))) = Ok o.
Proof.
  revert st gs'; induction gs as [|[t0 g0] gs IH]; intros st gs' Hs Hl H i t g Hi.
  - destruct i; discriminate.
  - simpl in H. inversion Hs as [|? ? Hs' Hlt]; subst.
    destruct (bind_ok _ _ _ H) as [[st' o] [Ht H1]].
    destruct (bind_ok _ _ _ H1) as [rest [Hr H2]]. inversion H2; subst; clear H H1 H2.
    unfold tree_step in Ht.
    assert (Hnew : negb (match lastTreeInstant st with Some u => t0 =? u | None => false end) = true).
    { destruct (lastTreeInstant st) as [u|]; [|reflexivity].
      specialize (Hl u eq_refl). simpl in Hl. inversion Hl; subst.
      destruct (Z.eqb_spec t0 u); [lia | reflexivity]. }
    rewrite Hnew, andb_true_r in Ht.
    destruct (bind_ok _ _ _ Ht) as [o' [Ho H3]]. inversion H3; subst; clear Ht H3.
    destruct i as [|i]; cbn [nth_error] in Hi |- *.
    + inversion Hi; subst. exists o. split; [reflexivity|].
      cbn [map firstn fst filter]. destruct (memZ t trI); cbn [length treeCounter] in *;
        [exact Ho | rewrite Z.add_0_r; exact Ho].
    + set (st' := if memZ t0 trI then mkTree (treeCounter st + 1) (Some t0) else st) in *.
      destruct (IH st' rest Hs') with (i := i) (t := t) (g := g) as [o2 [Hn2 Hg2]]; auto.
      { intros u Hu. unfold st' in Hu. destruct (memZ t0 trI); simpl in Hu.
        - inversion Hu; subst. exact Hlt.
        - specialize (Hl u Hu). simpl in Hl. inversion Hl; assumption. }
      exists o2. split; [exact Hn2|].
      cbn [map firstn fst filter] in *. unfold st' in Hg2. rewrite <- Hg2. f_equal.
      destruct (memZ t0 trI); cbn [length treeCounter]; lia.
Qed.

Lemma filter_le_firstn l i t :
  StronglySorted Z.lt l -> nth_error l i = Some t -> filter (fun u => u <=? t) l = firstn (S i) l.
Proof.
  intros Hs; revert i; induction Hs as [|x l Hs IH Hf]; intros i Hi; [destruct i; discriminate|].
  destruct i as [|i]; cbn [nth_error] in Hi.
  - inversion Hi; subst. simpl. rewrite Z.leb_refl. f_equal.
    clear -Hf. induction Hf as [|y l Hy Hl IH]; simpl; [reflexivity|].
    destruct (Z.leb_spec y t); [lia | exact IH].
  - cbn [firstn filter]. rewrite Forall_forall in Hf.
    assert (x < t) by (apply Hf; eapply nth_error_In; exact Hi).
    destruct (Z.leb_spec x t); [|lia]. f_equal. apply IH; exact Hi.
Qed.

Lemma same_set_length (l1 l2 : list Z) :
  NoDup l1 -> NoDup l2 -> (forall x, In x l1 <-> In x l2) -> length l1 = length l2.
Proof. intros H1 H2 H. apply Permutation_length, NoDup_Permutation; assumption. Qed.

Lemma Forall2_nth_error {A B} (P : A -> B -> Prop) l l' i x y :
  Forall2 P l l' -> nth_error l i = Some x -> nth_error l' i = Some y -> P x y.
Proof.
  intros H; revert i; induction H as [|a b l l' Hab Hl IH]; intros i Hx Hy; [destruct i; discriminate|].
  destruct i; simpl in *; [congruence | eapply IH; eauto].
Qed.

Lemma tree_in_force_build tsort up bc fuse re tr os isseq first mf sched :
  is_argsort tsort ->
  ti_flag up fuse = true ->
  length tr = length up ->
  (forall o, In o os -> NoDup (concat o)) ->
  build_events_matrix tsort up bc fuse re tr os isseq first mf = Ok sched ->
  forall i, In i sched -> (1 <= formed_until tr (in_t i))%nat ->
  exists o, nth_error os (formed_until tr (in_t i) - 1) = Some o /\
            StronglySorted (ti_before o) (in_evs i).
Proof.
  intros Hs Hti Htr Hos H i Hi Hf. destruct (build_inv _ _ _ _ _ _ _ _ _ _ _ Hs H)
    as [upI [bcI [fuI [reI [trI [gs [E1 [E2 [E3 [E4 [E5 [Hg ->]]]]]]]]]]]].
  destruct (all_events_spec _ _ _ _ _ _ _ _ _ _ E1 E2 E3 E4 E5) as [Hnd Hreq].
  set (l := trI ++ upI ++ bcI ++ fuI ++ reI) in *. destruct (Hs l) as [Hp Hsort].
  rewrite Hti in *. apply flatten_ok in E5. destruct E5 as [_ S5].
  apply In_nth_error in Hi. destruct Hi as [j Hj].
  assert (Hj' : nth_error gs j = Some (in_t i, in_evs i)).
  { pose proof (attach_t isseq (length up) mf (init_byp first) gs) as A1.
    pose proof (attach_evs isseq (length up) mf (init_byp first) gs) as A2.
    assert (B1 : nth_error (map fst gs) j = Some (in_t i)) by (rewrite <- A1; apply map_nth_error; exact Hj).
    assert (B2 : nth_error (map snd gs) j = Some (in_evs i)) by (rewrite <- A2; apply map_nth_error; exact Hj).
    destruct (nth_error gs j) as [[a b]|] eqn:E.
    - apply (map_nth_error fst) in E as C1. apply (map_nth_error snd) in E as C2. simpl in *. congruence.
    - apply nth_error_None in E. assert (nth_error (map fst gs) j = None) by (apply nth_error_None; rewrite map_length; exact E). congruence. }
  pose proof (groups_times (length (tsort l)) (tsort l) Hsort) as [Ht1 _].
  assert (Hlen : Forall2 (fun g g' : Z * list (nat * evtype) => fst g = fst g') (groups (length (tsort l)) (tsort l)) gs).
  { eapply Forall2_In_l; [eapply order_groups_ok; exact Hg|]. intros x y _ [Hxy _]; exact Hxy. }
  assert (Hex : exists g0, nth_error (groups (length (tsort l)) (tsort l)) j = Some (in_t i, g0)).
  { destruct (nth_error (groups (length (tsort l)) (tsort l)) j) as [[a b]|] eqn:E.
    - pose proof (Forall2_nth_error _ _ _ _ _ _ Hlen E Hj') as Hab. simpl in Hab. subst. eauto.
    - apply nth_error_None in E. assert (j < length gs)%nat by (apply nth_error_Some; congruence).
      assert (length gs = length (groups (length (tsort l)) (tsort l))) by (clear -Hlen; induction Hlen; simpl; congruence). lia. }
  destruct Hex as [g0 Hg0].
  destruct (order_groups_tree _ _ _ _ _ Ht1 (fun u (Hu : lastTreeInstant init_tree = Some u) => ltac:(discriminate)) Hg _ _ _ Hg0)
    as [o [Ho1 Ho2]].
  set (times := map fst (groups (length (tsort l)) (tsort l))) in *.
  assert (Hcnt : length (filter (fun u => memZ u (map ev_t trI)) (firstn (S j) times)) = formed_until tr (in_t i)).
  { unfold formed_until. apply same_set_length.
    - apply NoDup_filter. assert (Hn : NoDup times) by (apply (StronglySorted_lt_NoDup (fun x => x)); exact Ht1).
      rewrite <- (firstn_skipn (S j) times) in Hn. apply NoDup_app_inv in Hn. tauto.
    - apply NoDup_nodup.
    - intros u. rewrite filter_In, nodup_In, filter_In, memZ_In.
      rewrite <- (filter_le_firstn times j (in_t i) Ht1).
      2:{ unfold times. rewrite (map_nth_error _ _ _ Hg0). reflexivity. }
      rewrite filter_In. split.
      + intros [[Hu1 Hu2] Hu3]. split; [|exact Hu2]. apply in_map_iff in Hu3. destruct Hu3 as [e [<- He]].
        apply S5 in He. destruct He as [_ [_ [lst [Hl1 Hl2]]]]. apply in_concat. exists lst.
        split; [eapply nth_error_In; exact Hl1 | exact Hl2].
      + intros [Hu1 Hu2]. apply in_concat in Hu1. destruct Hu1 as [lst [Hl1 Hl2]].
        apply In_nth_error in Hl1. destruct Hl1 as [k Hk].
        assert (Hkl : (k < length up)%nat) by (rewrite <- Htr; apply nth_error_Some; congruence).
        assert (He : In (mkEv u k Tr) trI) by (apply S5; simpl; repeat split; [exact Hkl | exists lst; auto]).
        split; [split; [|exact Hu2] | apply in_map_iff; exists (mkEv u k Tr); auto].
        assert (Hin : In (mkEv u k Tr) (tsort l)) by (eapply Permutation_in; [symmetry; exact Hp | apply in_or_app; left; exact He]).
        rewrite <- (groups_flat (length (tsort l)) (tsort l) (le_n _)) in Hin.
        apply flat_In in Hin. destruct Hin as [g [Hgg _]]. unfold times. apply in_map_iff. exists (u, g); auto. }
  rewrite Hcnt in Ho2. simpl treeCounter in Ho2.
  exists o. split.
  - unfold py_get in Ho2.
    destruct (Z.ltb_spec (-1 + Z.of_nat (formed_until tr (in_t i))) 0); [lia|].
    match type of Ho2 with (if ?c then _ else _) = _ => destruct c end; [|discriminate].
    apply get_ok in Ho2. etransitivity; [|exact Ho2]. f_equal. lia.
  - assert (Eq : in_evs i = sort_simultaneous_events g0 true o) by congruence.
    rewrite Eq. apply ti_sorted.
    + apply Hos. unfold py_get in Ho2.
      match type of Ho2 with (if ?c then _ else _) = _ => destruct c end; [|discriminate].
      apply get_ok in Ho2. eapply nth_error_In; exact Ho2.
    + eapply flat_NoDup; [|eapply nth_error_In; exact Hg0].
      rewrite (groups_flat _ _ (le_n _)). eapply Permutation_NoDup; [symmetry; exact Hp | exact Hnd].
Qed.
