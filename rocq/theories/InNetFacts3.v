(** The in-network sum of a whole instant. *)
From Verif Require Import Base BaseFacts Buffers BufFacts CentrFacts Sched SchedSpec ChunkSpec ChunkFacts
  Tree TreeSpec TreeFacts TreeFacts2 InNet InNetSpec InNetFacts InNetFacts2.
From Coq Require Import Reals Lra Permutation.
Open Scope nat_scope.

Lemma map_fst_filter_NoDup ty evs : NoDup evs -> NoDup (map fst (filter (is_ty ty) evs)).
Proof.
  intros H. induction H as [|[k t] l Hx H IH]; [constructor|]. cbn [filter]. destruct (is_ty ty (k, t)) eqn:E; [|exact IH].
  cbn [map fst]. constructor; [|exact IH]. intros Hin. apply in_map_iff in Hin. destruct Hin as [[k' t'] [E' Hin]].
  apply filter_In in Hin. destruct Hin as [Hin E2]. apply is_ty_iff in E. apply is_ty_iff in E2. simpl in *. subst. contradiction.
Qed.

Lemma map_fst_split {B} (l : list (nat * B)) l1 k l2 : map fst l = l1 ++ k :: l2 ->
  exists e1 b e2, l = e1 ++ (k, b) :: e2 /\ map fst e1 = l1 /\ map fst e2 = l2.
Proof.
  revert l1; induction l as [|[x b] l IH]; intros l1 H; [destruct l1; discriminate|]. destruct l1 as [|y l1]; simpl in H.
  - injection H as -> H2. exists [], b, l. auto.
  - injection H as -> H2. destruct (IH l1 H2) as [e1 [b' [e2 [E1 [E2 E3]]]]]. exists ((y, b) :: e1), b', e2.
    rewrite E1. simpl. rewrite E2. auto.
Qed.

Lemma sumR_ext' n f g : (forall i, i < n -> f i = g i) -> sumR n f = sumR n g.
Proof. intros H. induction n as [|n IH]; [reflexivity|]. cbn [sumR]. rewrite IH by (intros; apply H; lia). rewrite H by lia. reflexivity. Qed.

Lemma at_level_exists n o k : full_ordering n o -> k < n -> exists l, at_level o k l.
Proof.
  intros Ho Hk. assert (Hin : In k (concat o)) by (eapply Permutation_in; [symmetry; exact Ho | apply in_seq; lia]).
  apply in_concat in Hin. destruct Hin as [lvl [H1 H2]]. apply In_nth_error in H1. destruct H1 as [l Hl]. exists l, lvl. auto.
Qed.

Lemma in_network_sum n N Ns nbrs r st o trees fz new evs s :
  is_tree n nbrs -> r < n -> orientate nbrs r = Ok (st, o) ->
  0 < Ns < N -> well_shaped n N s -> in_use trees s evs (o_up st, r) ->
  (forall k, k < n -> fz k = Some (new k) /\ Ns <= length (new k)) ->
  StronglySorted (ti_before o) evs -> NoDup evs ->
  (forall k, k < n -> In (k, Fu) evs /\ In (k, Bc) evs /\ In (k, Re) evs) ->
  (forall e, In e evs -> fst e < n) ->
  exists s', ti_instant N Ns trees fz evs s = Ok s' /\ well_shaped n N s' /\ cur s' = Some (o_up st, r) /\
    forall k, k < n ->
      let z q := shifted_frame N Ns (nth q (zp s) []) (new q) in
      nth k (zp s') [] = z k /\
      length (nth k (eta s') []) = N /\ length (nth k (etamk s') []) = N /\
      forall i, i < N ->
        nth i (nth k (eta s') []) 0%R = sumR n (fun q => nth i (z q) 0%R) /\
        nth i (nth k (etamk s') []) 0%R = sumR n (fun q => if Nat.eqb q k then 0%R else nth i (z q) 0%R).
Proof.
  intros HT Hr Ho HNs HW HU Hfz Hsort Hnd Hall Hlt.
  destruct (ordering_spec n nbrs r st o HT Hr Ho) as (Hfull & _ & _ & _ & Hlev).
  destruct (orientation n nbrs r HT Hr) as (st' & par & dep & m & R & _ & _ & Eo & _ & Hm & LU & LD & HN).
  rewrite Ho in Eo. assert (st' = st) by congruence. subst st'. clear Eo.
  assert (Hup : forall k, k < n -> nth k (o_up st) [] = children nbrs r par k) by (intros k Hk; apply HN; exact Hk).
  assert (Hpar : forall k la lb, k < n -> k <> r -> at_level o k la -> at_level o (par k) lb -> la < lb).
  { intros k la lb Hk Hkr Ha Hb. apply (Hlev k la (par k) lb Ha); [|exact Hb]. destruct (HN k Hk) as [_ Hd]. rewrite Hd.
    destruct (Nat.eqb_spec k r); [contradiction | left; reflexivity]. }
  assert (Ev := split_by_type o evs Hsort).
  assert (EF : ti_instant N Ns trees fz evs s = foldM (ti_event N Ns trees fz)
    (filter (is_ty Tr) evs ++ filter (is_ty Fu) evs ++ filter (is_ty Bc) evs ++ filter (is_ty Re) evs ++ filter (is_ty Up) evs) s)
    by (unfold ti_instant; rewrite <- Ev; reflexivity).
  rewrite EF. clear EF. rewrite foldM_app.
  (* tree formation *)
  assert (HTr : exists s1, foldM (ti_event N Ns trees fz) (filter (is_ty Tr) evs) s = Ok s1 /\ well_shaped n N s1 /\
                 cur s1 = Some (o_up st, r) /\ zp s1 = zp s).
  { unfold in_use in HU.
    assert (EF : filter (fun e : nat * evtype => match snd e with Tr => true | _ => false end) evs = filter (is_ty Tr) evs).
    { apply filter_ext. intros [k t]. destruct t; reflexivity. }
    rewrite EF in HU. destruct (filter (is_ty Tr) evs) as [|e [|? ?]] eqn:El; [| |destruct HU].
    - exists s. repeat split; try reflexivity; try exact HU; apply HW.
    - assert (Ht : snd e = Tr) by (apply is_ty_iff; apply (proj1 (filter_In (is_ty Tr) e evs)); rewrite El; left; reflexivity).
      cbn [foldM]. unfold ti_event. rewrite Ht. unfold ti_new_tree, get. rewrite HU. cbn [bind]. eexists. split; [reflexivity|].
      split; [exact HW|]. split; reflexivity. }
  destruct HTr as (s1 & E1 & W1 & C1 & Z1). rewrite E1. cbn [bind]. rewrite foldM_app.
  (* fusion *)
  destruct (fusion_phase n N Ns nbrs r par (o_up st) trees fz new HNs LU Hup (fun k Hk => proj1 (Hfz k Hk)) (fun k Hk => proj2 (Hfz k Hk)) (filter (is_ty Fu) evs) s1) as (s2 & E2 & W2 & Z2 & L2 & _ & _ & C2 & _ & B2).
  { intros e He. apply filter_In in He. destruct He as [He Ht]. apply is_ty_iff in Ht. auto. } { exact W1. }
  rewrite E2. cbn [bind]. rewrite foldM_app.
  set (old := fun k => nth k (zp s) []).
  assert (Hold : forall k, k < n -> length (old k) = N) by (intros k Hk; apply HW; exact Hk).
  assert (Hnew : forall k, k < n -> Ns <= length (new k)) by (intros k Hk; apply Hfz; exact Hk).
  (* partial sums *)
  assert (HinB : forall k, k < n -> In k (map fst (filter (is_ty Bc) evs))).
  { intros k Hk. apply in_map_iff. exists (k, Bc). split; [reflexivity|]. apply filter_In. split; [apply Hall; exact Hk | reflexivity]. }
  destruct (bc_phase n N Ns nbrs r par dep (o_up st) trees fz new R HNs LU Hup (fun k Hk => proj1 (Hfz k Hk)) Hnew old Hold (filter (is_ty Bc) evs) [] s2) as (s3 & E3 & I3).
  { intros e He. apply filter_In in He. destruct He as [He Ht]. apply is_ty_iff in Ht. auto. }
  { apply map_fst_filter_NoDup. exact Hnd. } { intros p []. }
  { intros l1 k l2 El c Hc. cbn [app] in El.
    assert (Hk : k < n).
    { assert (Hin : In k (map fst (filter (is_ty Bc) evs))) by (rewrite El; apply in_or_app; right; left; reflexivity).
      apply in_map_iff in Hin. destruct Hin as [e [<- He]]. apply filter_In in He. apply Hlt. tauto. }
    destruct (child_lt n nbrs r par dep R k c Hk Hc) as [Hc1 [Hc2 Hc3]].
    assert (Hin := HinB c Hc1). rewrite El in Hin. apply in_app_or in Hin. destruct Hin as [Hin|[Hin|Hin]]; [exact Hin | |]; exfalso.
    - exact (child_neq n nbrs r par dep R k c Hk Hc (eq_sym Hin)).
    - destruct (map_fst_split _ _ _ _ El) as [e1 [b [e2 [Ee [_ Ee2]]]]].
      rewrite <- Ee2 in Hin. apply in_map_iff in Hin. destruct Hin as [[c' t'] [Ec Hin]]. simpl in Ec. subst c'.
      assert (HS := sorted_filter _ (is_ty Bc) _ Hsort). rewrite Ee in HS. assert (HB := sorted_split _ _ _ _ HS _ Hin).
      assert (Hb : b = Bc).
      { assert (Hi : In (k, b) (filter (is_ty Bc) evs)) by (rewrite Ee; apply in_or_app; right; left; reflexivity).
        apply filter_In in Hi. destruct Hi as [_ Hi]. apply is_ty_iff in Hi. exact Hi. }
      assert (Ht : t' = Bc).
      { assert (Hi : In (c, t') (filter (is_ty Bc) evs)) by (rewrite Ee; apply in_or_app; right; right; exact Hin).
        apply filter_In in Hi. destruct Hi as [_ Hi]. apply is_ty_iff in Hi. exact Hi. }
      subst b t'. destruct HB as [HB|[_ HB]]; [simpl in HB; lia|]. simpl in HB.
      destruct (at_level_exists n o k Hfull Hk) as [la Hla]. destruct (at_level_exists n o c Hfull Hc1) as [lb Hlb].
      specialize (HB la lb Hla Hlb). rewrite <- Hc3 in Hla. specialize (Hpar c lb la Hc1 Hc2 Hlb Hla). lia. }
  { destruct W2 as (S1 & S2 & S3 & S4 & S5 & _). unfold bcinv. do 5 (split; [assumption|]). rewrite C2, C1. split; [reflexivity|].
    split. { intros k Hk. apply (proj1 (B2 k)). apply filter_In. split; [apply Hall; exact Hk | reflexivity]. }
    split. { intros k Hk. cbn. rewrite Z2, Z1. reflexivity. }
    split; [intros k [] | intros []]. }
  cbn [app] in I3. rewrite E3. cbn [bind]. rewrite foldM_app.
  destruct I3 as (S1 & S2 & S3 & S4 & S5 & C3 & _ & Z3 & P3 & R3).
  (* relay *)
  destruct (P3 r (HinB r Hr)) as [LE _]. destruct (R3 (HinB r Hr)) as [Er [Lr Hrm]].
  assert (HinR : forall k, k < n -> In k (map fst (filter (is_ty Re) evs))).
  { intros k Hk. apply in_map_iff. exists (k, Re). split; [reflexivity|]. apply filter_In. split; [apply Hall; exact Hk | reflexivity]. }
  destruct (re_phase n N Ns nbrs r par dep (o_up st) trees fz new R HNs LU Hup (fun k Hk => proj1 (Hfz k Hk)) Hnew old Hold (nth r (zl s3) []) LE
              (filter (is_ty Re) evs) [] s3) as (s4 & E4 & I4).
  { intros e He. apply filter_In in He. destruct He as [He Ht]. apply is_ty_iff in Ht. auto. }
  { intros l1 k l2 El. cbn [app] in El. destruct (Nat.eq_dec k r) as [Hkr|Hkr]; [left; exact Hkr|]. right.
    assert (Hk : k < n).
    { assert (Hin : In k (map fst (filter (is_ty Re) evs))) by (rewrite El; apply in_or_app; right; left; reflexivity).
      apply in_map_iff in Hin. destruct Hin as [e [<- He]]. apply filter_In in He. apply Hlt. tauto. }
    destruct (r_par _ _ _ _ _ R k Hk Hkr) as [Hp [_ _]].
    assert (Hin := HinR (par k) Hp). rewrite El in Hin. apply in_app_or in Hin. destruct Hin as [Hin|[Hin|Hin]]; [exact Hin | |]; exfalso.
    - exact (par_irrefl n nbrs r par dep R k Hk Hkr (eq_sym Hin)).
    - destruct (map_fst_split _ _ _ _ El) as [e1 [b [e2 [Ee [_ Ee2]]]]].
      rewrite <- Ee2 in Hin. apply in_map_iff in Hin. destruct Hin as [[c' t'] [Ec Hin]]. simpl in Ec. subst c'.
      assert (HS := sorted_filter _ (is_ty Re) _ Hsort). rewrite Ee in HS. assert (HB := sorted_split _ _ _ _ HS _ Hin).
      assert (Hb : b = Re).
      { assert (Hi : In (k, b) (filter (is_ty Re) evs)) by (rewrite Ee; apply in_or_app; right; left; reflexivity).
        apply filter_In in Hi. destruct Hi as [_ Hi]. apply is_ty_iff in Hi. exact Hi. }
      assert (Ht : t' = Re).
      { assert (Hi : In (par k, t') (filter (is_ty Re) evs)) by (rewrite Ee; apply in_or_app; right; right; exact Hin).
        apply filter_In in Hi. destruct Hi as [_ Hi]. apply is_ty_iff in Hi. exact Hi. }
      subst b t'. destruct HB as [HB|[_ HB]]; [simpl in HB; lia|]. simpl in HB.
      destruct (at_level_exists n o k Hfull Hk) as [la Hla]. destruct (at_level_exists n o (par k) Hfull Hp) as [lb Hlb].
      specialize (HB la lb Hla Hlb). specialize (Hpar k la lb Hk Hkr Hla Hlb). lia. }
  { unfold reinv. do 6 (split; [assumption|]). split.
    - intros k Hk. rewrite Z3 by exact Hk. assert (Em : memN k (map fst (filter (is_ty Bc) evs)) = true) by (apply memN_In, HinB; exact Hk).
      rewrite Em. reflexivity.
    - intros k Hk [->|[]]. split; [exact Er|]. split; [exact Lr|]. intros i Hi. rewrite Hrm, Er by exact Hi. reflexivity. }
  cbn [app] in I4. rewrite E4. cbn [bind].
  (* updates *)
  assert (EU : forall l s0, (forall e, In e l -> snd e = Up) -> foldM (ti_event N Ns trees fz) l s0 = Ok s0).
  { induction l as [|e l IH]; intros s0 Hl; [reflexivity|]. cbn [foldM]. unfold ti_event at 1. rewrite (Hl e) by (left; reflexivity). cbn [bind].
    apply IH. intros; apply Hl; right; assumption. }
  rewrite EU by (intros e He; apply filter_In in He; destruct He as [_ He]; apply is_ty_iff in He; exact He).
  exists s4. split; [reflexivity|].
  split. { destruct I4 as (J1 & J2 & J3 & J4 & J5 & _ & J6 & _). unfold well_shaped. do 5 (split; [assumption|]).
           intros k Hk. rewrite J6 by exact Hk. unfold zf, shifted_frame. rewrite app_length, skipn_length, firstn_length, Hold by exact Hk.
           specialize (Hnew k Hk). lia. }
  split. { apply I4. }
  intros k Hk. set (z := fun q => shifted_frame N Ns (nth q (zp s) []) (new q)).
  destruct I4 as (_ & _ & _ & _ & _ & _ & Z4 & H4).
  destruct (H4 k Hk) as [A [B C]].
  { destruct (Nat.eq_dec k r) as [|Hkr]; [left; assumption|]. right. apply HinR. apply (r_par _ _ _ _ _ R k Hk Hkr). }
  assert (ET : forall i, i < N -> nth i (nth r (zl s3) []) 0%R = sumR n (fun q => nth i (z q) 0%R)).
  { intros i Hi. apply (root_total n nbrs r par dep R (fun q => nth i (z q) 0%R) (fun q => nth i (nth q (zl s3) []) 0%R)) with (m := m); [|exact Hm].
    intros q Hq. destruct (P3 q (HinB q Hq)) as [_ HP]. apply HP. exact Hi. }
  split; [apply Z4; exact Hk|]. rewrite A. split; [exact LE|]. split; [exact B|]. intros i Hi. split; [apply ET; exact Hi|].
  rewrite C, ET by exact Hi. exact (sumR_except n k (fun q => nth i (z q) 0%R) Hk).
Qed.
