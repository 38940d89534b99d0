(** Lemmas about whole schedules. *)
From Verif Require Import Base BaseFacts Sched SchedSpec SchedFacts.
Open Scope Z_scope.

Definition ti_flag (up fuse : list (list Z)) : bool :=
  existsb (fun ts => negb (Nat.eqb (length ts) 0)) fuse && Nat.eqb (length fuse) (length up).

Definition init_byp (first : nat) : bypst := mkByp (Z.of_nat first - 1) 0.
Definition init_tree : treest := mkTree (-1) None.

Lemma build_inv tsort up bc fuse re tr os isseq first mf sched :
  is_argsort tsort ->
  build_events_matrix tsort up bc fuse re tr os isseq first mf = Ok sched ->
  exists upI bcI fuI reI trI gs,
    flatten_instants (length up) up Up = Ok upI /\
    flatten_instants (length up) bc Bc = Ok bcI /\
    (if ti_flag up fuse then flatten_instants (length up) fuse Fu = Ok fuI else fuI = []) /\
    (if ti_flag up fuse then flatten_instants (length up) re Re = Ok reI else reI = []) /\
    (if ti_flag up fuse then flatten_instants (length up) tr Tr = Ok trI else trI = []) /\
    let evs := tsort (trI ++ upI ++ bcI ++ fuI ++ reI) in
    order_groups (ti_flag up fuse) (map ev_t trI) os init_tree (groups (length evs) evs) = Ok gs /\
    sched = attach isseq (length up) mf (init_byp first) gs.
Proof.
  intros Hs H. unfold build_events_matrix in H. fold (ti_flag up fuse) in H.
  destruct (bind_ok _ _ _ H) as [upI [E1 H1]].
  destruct (bind_ok _ _ _ H1) as [bcI [E2 H2]].
  destruct (bind_ok _ _ _ H2) as [fuI [E3 H3]].
  destruct (bind_ok _ _ _ H3) as [reI [E4 H4]].
  destruct (bind_ok _ _ _ H4) as [trI [E5 H5]].
  exists upI, bcI, fuI, reI, trI.
  set (evs := tsort (trI ++ upI ++ bcI ++ fuI ++ reI)) in *.
  assert (Hl : (length upI + length bcI + length fuI + length reI + length trI)%nat = length evs).
  { unfold evs. rewrite (Permutation_length (proj1 (Hs _))). rewrite !app_length. lia. }
  rewrite Hl in H5. rewrite build_loop_spec in H5 by lia. simpl skipn in H5.
  destruct (bind_ok _ _ _ H5) as [gs [Hg H6]]. inversion H6; subst.
  exists gs. repeat split; auto;
    destruct (ti_flag up fuse); congruence.
Qed.

(** events of the flattened array *)
Lemma all_events_spec up bc fuse re tr upI bcI fuI reI trI :
  flatten_instants (length up) up Up = Ok upI ->
  flatten_instants (length up) bc Bc = Ok bcI ->
  (if ti_flag up fuse then flatten_instants (length up) fuse Fu = Ok fuI else fuI = []) ->
  (if ti_flag up fuse then flatten_instants (length up) re Re = Ok reI else reI = []) ->
  (if ti_flag up fuse then flatten_instants (length up) tr Tr = Ok trI else trI = []) ->
  NoDup (trI ++ upI ++ bcI ++ fuI ++ reI) /\
  forall e, In e (trI ++ upI ++ bcI ++ fuI ++ reI) <-> requested (ti_flag up fuse) up bc fuse re tr e.
Proof.
  intros H1 H2 H3 H4 H5.
  apply flatten_ok in H1. destruct H1 as [N1 S1].
  apply flatten_ok in H2. destruct H2 as [N2 S2].
  set (ti := ti_flag up fuse) in *.
  assert (C3 : NoDup fuI /\ forall e, In e fuI <-> ti = true /\ ev_type e = Fu /\ (ev_node e < length up)%nat /\ listed fuse (ev_node e) (ev_t e)).
  { destruct ti; [apply flatten_ok in H3; destruct H3 as [A B]; split; [exact A|]; intros e; rewrite B; tauto|].
    subst fuI. split; [constructor|]. intros e; simpl; intuition discriminate. }
  assert (C4 : NoDup reI /\ forall e, In e reI <-> ti = true /\ ev_type e = Re /\ (ev_node e < length up)%nat /\ listed re (ev_node e) (ev_t e)).
  { destruct ti; [apply flatten_ok in H4; destruct H4 as [A B]; split; [exact A|]; intros e; rewrite B; tauto|].
    subst reI. split; [constructor|]. intros e; simpl; intuition discriminate. }
  assert (C5 : NoDup trI /\ forall e, In e trI <-> ti = true /\ ev_type e = Tr /\ (ev_node e < length up)%nat /\ listed tr (ev_node e) (ev_t e)).
  { destruct ti; [apply flatten_ok in H5; destruct H5 as [A B]; split; [exact A|]; intros e; rewrite B; tauto|].
    subst trI. split; [constructor|]. intros e; simpl; intuition discriminate. }
  destruct C3 as [N3 S3]. destruct C4 as [N4 S4]. destruct C5 as [N5 S5]. clear H3 H4 H5.
  split.
  - repeat apply NoDup_app; auto; intros e; rewrite ?in_app_iff, ?S1, ?S2, ?S3, ?S4, ?S5;
      intros Ha Hb; intuition congruence.
  - intros e. rewrite !in_app_iff, S1, S2, S3, S4, S5. unfold requested.
    destruct (ev_type e); intuition (try discriminate; try congruence).
Qed.

Lemma flat_In gs t k ty :
  In (mkEv t k ty) (flat gs) <-> exists g, In (t, g) gs /\ In (k, ty) g.
Proof.
  unfold flat. rewrite in_flat_map. split.
  - intros [[t' g] [Hin He]]. simpl in He. apply in_map_iff in He.
    destruct He as [[k' ty'] [E Hg]]. simpl in E. inversion E; subst. eauto.
  - intros [g [Hin Hg]]. exists (t, g). split; [exact Hin|]. simpl.
    apply in_map_iff. exists (k, ty); auto.
Qed.

Lemma flat_NoDup gs t g : NoDup (flat gs) -> In (t, g) gs -> NoDup g.
Proof.
  intros Hn Hin. apply in_split in Hin. destruct Hin as [a [b ->]].
  unfold flat in Hn. rewrite flat_map_app in Hn. apply NoDup_app_inv in Hn.
  destruct Hn as [_ [Hn _]]. simpl in Hn. apply NoDup_app_inv in Hn. destruct Hn as [Hn _].
  apply NoDup_map_inv in Hn. exact Hn.
Qed.

Lemma groups_nonempty fuel l t g : In (t, g) (groups fuel l) -> g <> [].
Proof.
  revert l; induction fuel as [|fuel IH]; intros l; simpl; [tauto|].
  destruct l as [|e l]; simpl; [tauto|].
  intros [E|Hin]; [inversion E; discriminate | eapply IH; exact Hin].
Qed.

(** Pointwise relation between groups and ordered groups that permutes events. *)
Lemma perm_groups_transfer (gs gs' : list (Z * list (nat * evtype))) :
  Forall2 (fun g g' => fst g = fst g' /\ Permutation (snd g') (snd g)) gs gs' ->
  map fst gs' = map fst gs /\
  (forall t g', In (t, g') gs' -> exists g, In (t, g) gs /\ Permutation g' g) /\
  (forall t g, In (t, g) gs -> exists g', In (t, g') gs' /\ Permutation g' g).
Proof.
  intros H; induction H as [|[t g] [t' g'] gs gs' [E P] Hl IH]; simpl in *.
  - repeat split; intros; contradiction.
  - subst t'. destruct IH as [I1 [I2 I3]]. repeat split.
    + rewrite I1; reflexivity.
    + intros u h [Eq|Hin]; [inversion Eq; subst; eauto|].
      destruct (I2 _ _ Hin) as [h' [? ?]]; eauto.
    + intros u h [Eq|Hin]; [inversion Eq; subst; eauto|].
      destruct (I3 _ _ Hin) as [h' [? ?]]; eauto.
Qed.

(** What every schedule whose sorting step loses nothing satisfies. *)
Lemma exact_from_perm ti up bc fuse re tr evs gs isseq n mf st :
  StronglySorted (fun a b => ev_t a <= ev_t b) evs ->
  NoDup evs ->
  (forall e, In e evs <-> requested ti up bc fuse re tr e) ->
  Forall2 (fun g g' => fst g = fst g' /\ Permutation (snd g') (snd g)) (groups (length evs) evs) gs ->
  exact_schedule ti up bc fuse re tr (attach isseq n mf st gs).
Proof.
  intros Hsort Hnd Hreq Hp. destruct (perm_groups_transfer _ _ Hp) as [P1 [P2 P3]].
  pose proof (groups_flat (length evs) evs ltac:(lia)) as Hfl.
  split; [|split].
  - rewrite attach_t, P1. apply groups_times; exact Hsort.
  - intros i Hi.
    assert (Hin : In (in_t i, in_evs i) gs) by (eapply attach_In; exists i; split; [exact Hi | split; reflexivity]).
    destruct (P2 _ _ Hin) as [g [Hg Hgp]]. split; [|split].
    + intros E. rewrite E in Hgp. apply Permutation_nil in Hgp. subst.
      apply groups_nonempty in Hg. congruence.
    + eapply Permutation_NoDup; [symmetry; exact Hgp|].
      eapply flat_NoDup; [|exact Hg]. rewrite Hfl; exact Hnd.
    + pose proof (attach_lengths isseq n mf st gs) as HL. rewrite Forall_forall in HL. apply HL; exact Hi.
  - intros t k ty. rewrite <- Hreq, <- Hfl, flat_In. unfold scheduled. split.
    + intros [i [Hi [<- Hk]]].
      assert (Hin : In (in_t i, in_evs i) gs) by (eapply attach_In; exists i; split; [exact Hi | split; reflexivity]).
      destruct (P2 _ _ Hin) as [g [Hg Hgp]]. exists g; split; [exact Hg|].
      eapply Permutation_in; [exact Hgp | exact Hk].
    + intros [g [Hg Hk]]. destruct (P3 _ _ Hg) as [g' [Hg' Hgp]].
      destruct (proj2 (attach_In isseq n mf st gs t g') Hg') as [i [Hi [Ht He]]].
      exists i; split; [exact Hi|]. split; [exact Ht|]. rewrite He.
      eapply Permutation_in; [symmetry; exact Hgp | exact Hk].
Qed.

Lemma groups_events fuel l t g k ty :
  (length l <= fuel)%nat -> In (t, g) (groups fuel l) -> In (k, ty) g -> In (mkEv t k ty) l.
Proof.
  intros Hl Hg Hk. rewrite <- (groups_flat fuel l Hl). apply flat_In. eauto.
Qed.

Lemma Forall2_In_l {A B} (P Q : A -> B -> Prop) l l' :
  Forall2 P l l' -> (forall x y, In x l -> P x y -> Q x y) -> Forall2 Q l l'.
Proof.
  intros H; induction H as [|x y l l' Hxy Hl IH]; intros HPQ; constructor.
  - apply HPQ; [left; reflexivity | exact Hxy].
  - apply IH. intros a b Ha; apply HPQ; right; exact Ha.
Qed.

(** orderings that list every node exactly once *)
Lemma full_covers n o evs :
  full_ordering n o -> (forall e, In e evs -> (fst e < n)%nat) -> covers o evs.
Proof.
  intros Ho He. split.
  - eapply Permutation_NoDup; [symmetry; exact Ho | apply seq_NoDup].
  - intros e Hin. eapply Permutation_in; [symmetry; exact Ho|]. apply in_seq. specialize (He _ Hin). lia.
Qed.

Lemma exact_schedule_build tsort up bc fuse re tr os isseq first mf sched :
  is_argsort tsort ->
  (ti_flag up fuse = true -> forall o, In o os -> full_ordering (length up) o) ->
  build_events_matrix tsort up bc fuse re tr os isseq first mf = Ok sched ->
  exact_schedule (ti_flag up fuse) up bc fuse re tr sched.
Proof.
  intros Hs Ho H. destruct (build_inv _ _ _ _ _ _ _ _ _ _ _ Hs H)
    as [upI [bcI [fuI [reI [trI [gs [E1 [E2 [E3 [E4 [E5 [Hg ->]]]]]]]]]]]].
  destruct (all_events_spec _ _ _ _ _ _ _ _ _ _ E1 E2 E3 E4 E5) as [Hnd Hreq].
  set (l := trI ++ upI ++ bcI ++ fuI ++ reI) in *.
  destruct (Hs l) as [Hp Hsort].
  assert (Hreq' : forall e, In e (tsort l) <-> requested (ti_flag up fuse) up bc fuse re tr e).
  { intros e. rewrite <- Hreq. split; intros Hin; (eapply Permutation_in; [|exact Hin]); [exact Hp | symmetry; exact Hp]. }
  eapply exact_from_perm; [exact Hsort | | exact Hreq' | ].
  - eapply Permutation_NoDup; [symmetry; exact Hp | exact Hnd].
  - apply order_groups_ok in Hg. eapply Forall2_In_l; [exact Hg|].
    intros [t g] [t' g'] Hin [Et [o [Hin_o Eg]]]. simpl in *. split; [exact Et|]. subst g'.
    destruct (ti_flag up fuse) eqn:Eti; [|apply fc_sort_perm].
    apply ti_sort_perm. apply (full_covers (length up)); [apply Ho; auto|].
    intros [k ty] Hk. simpl.
    pose proof (groups_events _ _ _ _ _ _ (le_n _) Hin Hk) as He.
    apply Hreq' in He. destruct He as [He _]. exact He.
Qed.

(** totality in the fully connected case *)
Lemma fc_order_total trI os st gs : exists gs', order_groups false trI os st gs = Ok gs'.
Proof.
  revert st; induction gs as [|[t g] gs IH]; intros st; simpl; [eexists; reflexivity|].
  destruct (IH st) as [gs' E]. rewrite E. simpl. eexists; reflexivity.
Qed.

Lemma build_fc_total tsort up bc fuse re tr os isseq first mf :
  is_argsort tsort ->
  ti_flag up fuse = false ->
  (bc = [] \/ (length up <= length bc)%nat) ->
  exists s, build_events_matrix tsort up bc fuse re tr os isseq first mf = Ok s.
Proof.
  intros Hs Hti Hbc. unfold build_events_matrix. fold (ti_flag up fuse). rewrite Hti.
  destruct (flatten_total (length up) up Up (or_intror (le_n _))) as [upI E1].
  destruct (flatten_total (length up) bc Bc Hbc) as [bcI E2].
  rewrite E1, E2. cbn [bind].
  set (evs := tsort ([] ++ upI ++ bcI ++ [] ++ [])).
  assert (Hl : (length upI + length bcI + @length event [] + @length event [] + @length event [])%nat = length evs).
  { unfold evs. rewrite (Permutation_length (proj1 (Hs _))). rewrite !app_length. simpl. lia. }
  rewrite Hl, build_loop_spec by lia.
  destruct (fc_order_total (map ev_t (@nil event)) os init_tree (groups (length evs) (skipn 0 evs))) as [gs Eg].
  unfold init_tree in Eg. rewrite Eg. eexists; reflexivity.
Qed.

(** ** Order of simultaneous events *)
Lemma flat_map_sorted {A B} (R : B -> B -> Prop) (S : A -> A -> Prop) (f : A -> list B) l :
  StronglySorted S l ->
  (forall k, In k l -> StronglySorted R (f k)) ->
  (forall k k' x y, In k l -> In k' l -> S k k' -> In x (f k) -> In y (f k') -> R x y) ->
  StronglySorted R (flat_map f l).
Proof.
  intros Hl; induction Hl as [|k l Hs IH Hf]; intros H1 H2; simpl; [constructor|].
  apply StronglySorted_app. repeat split.
  - apply H1; left; reflexivity.
  - apply IH; [intros k' Hk'; apply H1; right; exact Hk'|].
    intros a b x y Ha Hb; apply H2; right; assumption.
  - intros x y Hx Hy. apply in_flat_map in Hy. destruct Hy as [k' [Hk' Hy]].
    rewrite Forall_forall in Hf.
    apply (H2 k k'); [left; reflexivity | right; exact Hk' | apply Hf; exact Hk' | exact Hx | exact Hy].
Qed.

Lemma evkeys_sorted : StronglySorted (fun a b => evcode a < evcode b) evkeys.
Proof. unfold evkeys. repeat constructor. Qed.

Lemma fc_sorted evs o : StronglySorted fc_before (sort_simultaneous_events evs false o).
Proof.
  unfold sort_simultaneous_events.
  eapply flat_map_sorted; [apply evkeys_sorted| |].
  - intros k _.
    assert (Hty : forall p, In p (isort_by (fun e : nat * evtype => Z.of_nat (fst e)) (of_type k evs)) -> snd p = k).
    { intros p Hp. apply isort_by_In in Hp. apply of_type_In in Hp. tauto. }
    pose proof (isort_by_sorted _ (fun e : nat * evtype => Z.of_nat (fst e)) (of_type k evs)) as Hs.
    revert Hty Hs. generalize (isort_by (fun e : nat * evtype => Z.of_nat (fst e)) (of_type k evs)).
    intros l Hty Hs. induction Hs as [|x l Hs IH Hf]; constructor.
    + apply IH. intros p Hp; apply Hty; right; exact Hp.
    + apply Forall_forall. intros y Hy. rewrite Forall_forall in Hf. specialize (Hf y Hy).
      right. split; [rewrite (Hty x), (Hty y); simpl; auto | unfold key_le in Hf; lia].
  - intros k k' x y _ _ Hk Hx Hy. apply isort_by_In, of_type_In in Hx. apply isort_by_In, of_type_In in Hy.
    left. destruct Hx as [_ ->]. destruct Hy as [_ ->]. exact Hk.
Qed.

(** order along a tree, for one event type *)
Definition lev_before (o : ordering) (a b : nat) : Prop :=
  forall la lb, at_level o a la -> at_level o b lb ->
    (la < lb)%nat \/ (la = lb /\ (a <= b)%nat).

Lemma NoDup_level_unique o k l l' :
  NoDup (concat o) -> at_level o k l -> at_level o k l' -> l = l'.
Proof.
  intros Hn. revert l l'; induction o as [|lv o IH]; intros l l' [x [Hx Hkx]] [y [Hy Hky]].
  - destruct l; discriminate.
  - simpl in Hn. apply NoDup_app_inv in Hn. destruct Hn as [_ [Hn Hd]].
    destruct l as [|l]; destruct l' as [|l']; simpl in *; [reflexivity | | | ].
    + inversion Hx; subst. exfalso. apply (Hd k); [exact Hkx|]. apply in_concat.
      exists y; split; [eapply nth_error_In; exact Hy | exact Hky].
    + inversion Hy; subst. exfalso. apply (Hd k); [exact Hky|]. apply in_concat.
      exists x; split; [eapply nth_error_In; exact Hx | exact Hkx].
    + f_equal. apply IH; [exact Hn | exists x; auto | exists y; auto].
Qed.

Lemma visit_sorted o : NoDup (concat o) -> StronglySorted (lev_before o) (visit o).
Proof.
  intros Hn. unfold visit. rewrite <- flat_map_concat_map.
  assert (Hgen : forall pre o', o = pre ++ o' ->
            StronglySorted (lev_before o) (flat_map (isort_by Z.of_nat) o')).
  { intros pre o'; revert pre; induction o' as [|lv o' IH]; intros pre E; simpl; [constructor|].
    assert (Hlv : forall k, In k lv -> at_level o k (length pre)).
    { intros k Hk. exists lv. split; [|exact Hk]. rewrite E, nth_error_app2 by lia.
      rewrite Nat.sub_diag. reflexivity. }
    assert (Hrest : forall k, In k (flat_map (isort_by Z.of_nat) o') ->
                    exists l, (length pre < l)%nat /\ at_level o k l).
    { intros k Hk. apply in_flat_map in Hk. destruct Hk as [lv' [Hin Hk]].
      apply isort_by_In in Hk. apply In_nth_error in Hin. destruct Hin as [j Hj].
      exists (length pre + S j)%nat. split; [lia|]. exists lv'. split; [|exact Hk].
      rewrite E, nth_error_app2 by lia. replace (length pre + S j - length pre)%nat with (S j) by lia.
      exact Hj. }
    apply StronglySorted_app. repeat split.
    - assert (Hs := isort_by_sorted _ Z.of_nat lv).
      assert (Hin : forall k, In k (isort_by Z.of_nat lv) -> at_level o k (length pre)).
      { intros k Hk. apply Hlv. apply isort_by_In in Hk. exact Hk. }
      revert Hs Hin. generalize (isort_by Z.of_nat lv). intros l Hs Hin.
      induction Hs as [|x l Hs IHs Hf]; constructor.
      + apply IHs. intros k Hk; apply Hin; right; exact Hk.
      + apply Forall_forall. intros y Hy la lb Ha Hb. right.
        rewrite Forall_forall in Hf. specialize (Hf y Hy). unfold key_le in Hf.
        rewrite (NoDup_level_unique _ _ _ _ Hn Ha (Hin x (or_introl eq_refl))).
        rewrite (NoDup_level_unique _ _ _ _ Hn Hb (Hin y (or_intror Hy))). lia.
    - apply (IH (pre ++ [lv])). rewrite E, <- app_assoc. reflexivity.
    - intros x y Hx Hy la lb Ha Hb. left.
      apply isort_by_In in Hx. destruct (Hrest _ Hy) as [l [Hl Hyl]].
      rewrite (NoDup_level_unique _ _ _ _ Hn Ha (Hlv _ Hx)).
      rewrite (NoDup_level_unique _ _ _ _ Hn Hb Hyl). lia. }
  apply (Hgen []). reflexivity.
Qed.

Lemma at_level_rev o k l :
  at_level o k l -> at_level (rev o) k (length o - S l)%nat.
Proof.
  intros [lv [Hl Hk]]. exists lv. split; [|exact Hk].
  assert (l < length o)%nat by (apply nth_error_Some; congruence).
  rewrite (nth_error_nth' _ []) by (rewrite rev_length; lia).
  rewrite rev_nth by lia. rewrite <- Hl. rewrite (nth_error_nth' _ []) by lia.
  do 2 f_equal. lia.
Qed.

Lemma compile_sorted evs o ty :
  NoDup (concat o) -> NoDup evs -> (forall e, In e evs -> snd e = ty) ->
  StronglySorted (fun a b => snd a = ty /\ snd b = ty /\ lev_before o (fst a) (fst b))
    (compile_indices evs o).
Proof.
  intros Hn Hne Hty. rewrite compile_visit.
  eapply flat_map_sorted; [apply visit_sorted; exact Hn| |].
  - intros k _. assert (Hk : forall x, In x (filter (fun e : nat * evtype => Nat.eqb (fst e) k) evs) -> snd x = ty /\ fst x = k).
    { intros x Hx. apply filter_In in Hx. destruct Hx as [Hx E]. apply Nat.eqb_eq in E. auto. }
    revert Hk. generalize (filter (fun e : nat * evtype => Nat.eqb (fst e) k) evs). intros l.
    induction l as [|x l IH]; intros Hk; constructor.
    + apply IH. intros y Hy; apply Hk; right; exact Hy.
    + apply Forall_forall. intros y Hy.
      destruct (Hk x (or_introl eq_refl)) as [Hx1 Hx2]. destruct (Hk y (or_intror Hy)) as [Hy1 Hy2].
      repeat split; auto. rewrite Hx2, Hy2. intros la lb Ha Hb. right.
      split; [eapply NoDup_level_unique; eauto | lia].
  - intros k k' x y _ _ Hk Hx Hy. apply filter_In in Hx. apply filter_In in Hy.
    destruct Hx as [Hx Ex]. destruct Hy as [Hy Ey]. apply Nat.eqb_eq in Ex. apply Nat.eqb_eq in Ey.
    repeat split; auto. rewrite Ex, Ey. exact Hk.
Qed.

Lemma compile_In evs o e : In e (compile_indices evs o) -> In e evs.
Proof.
  rewrite compile_visit, in_flat_map. intros [k [_ He]]. apply filter_In in He. tauto.
Qed.

Lemma ti_sorted evs o :
  NoDup (concat o) -> NoDup evs -> StronglySorted (ti_before o) (sort_simultaneous_events evs true o).
Proof.
  intros Hn Hne. unfold sort_simultaneous_events.
  assert (Hds : forall k, is_ds k = true -> StronglySorted (ti_before o) (compile_indices (of_type k evs) o)).
  { intros k Hk. eapply StronglySorted_impl; [|apply (compile_sorted (of_type k evs) o k Hn)].
    - intros a b [Ha [Hb HL]]. right. split; [congruence|].
      intros la lb H1 H2. destruct (HL la lb H1 H2) as [L|E]; [left|right; exact E].
      rewrite Ha. destruct k; try discriminate; exact L.
    - apply NoDup_filter; exact Hne.
    - intros e He. apply of_type_In in He. tauto. }
  assert (Hus : forall k, is_ds k = false -> StronglySorted (ti_before o) (compile_indices (of_type k evs) (rev o))).
  { intros k Hk.
    assert (Hnr : NoDup (concat (rev o))) by (eapply Permutation_NoDup; [symmetry; apply concat_rev_perm | exact Hn]).
    eapply StronglySorted_impl; [|apply (compile_sorted (of_type k evs) (rev o) k Hnr)].
    - intros a b [Ha [Hb HL]]. right. split; [congruence|].
      intros la lb H1 H2.
      assert (A1 : (la < length o)%nat) by (destruct H1 as [? [E _]]; apply nth_error_Some; congruence).
      assert (A2 : (lb < length o)%nat) by (destruct H2 as [? [E _]]; apply nth_error_Some; congruence).
      destruct (HL _ _ (at_level_rev _ _ _ H1) (at_level_rev _ _ _ H2)) as [L|[E L]].
      + left. rewrite Ha. destruct k; try discriminate; lia.
      + right. split; [lia | exact L].
    - apply NoDup_filter; exact Hne.
    - intros e He. apply of_type_In in He. tauto. }
  assert (Hty : forall k o' x, In x (compile_indices (of_type k evs) o') -> snd x = k).
  { intros k o' x Hx. apply compile_In in Hx. apply of_type_In in Hx. tauto. }
  rewrite app_nil_end. rewrite <- app_assoc. 
  apply StronglySorted_app. repeat split; [|apply StronglySorted_app; repeat split|].
  - eapply flat_map_sorted with (S := fun a b => evcode a < evcode b).
    + apply StronglySorted_filter, evkeys_sorted.
    + intros k Hk. apply Hds. apply filter_In in Hk. tauto.
    + intros k k' x y _ _ Hk Hx Hy. left. rewrite (Hty _ _ _ Hx), (Hty _ _ _ Hy). exact Hk.
  - eapply flat_map_sorted with (S := fun a b => evcode a < evcode b).
    + apply StronglySorted_filter, evkeys_sorted.
    + intros k Hk. apply Hus. apply filter_In in Hk. destruct Hk as [_ Hk]. apply negb_true_iff in Hk. exact Hk.
    + intros k k' x y _ _ Hk Hx Hy. left. rewrite (Hty _ _ _ Hx), (Hty _ _ _ Hy). exact Hk.
  - constructor.
  - intros x y _ [].
  - intros x y Hx Hy. rewrite app_nil_r in Hy.
    apply in_flat_map in Hx. destruct Hx as [k [Hk Hx]]. apply filter_In in Hk.
    apply in_flat_map in Hy. destruct Hy as [k' [Hk' Hy]]. apply filter_In in Hk'.
    left. rewrite (Hty _ _ _ Hx), (Hty _ _ _ Hy).
    destruct Hk as [_ Hk]. destruct Hk' as [_ Hk']. destruct k, k'; simpl in *; try discriminate; lia.
Qed.
