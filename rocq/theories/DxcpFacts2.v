(** Proofs about topologies. *)
From Verif Require Import Base BaseFacts Dxcp DxcpSpec.

Lemma is_unique_NoDup l : is_unique_list l = true <-> NoDup l.
Proof.
  unfold is_unique_list. rewrite forallb_forall. rewrite (NoDup_count_occ Nat.eq_dec). split.
  - intros H x. destruct (in_dec Nat.eq_dec x l) as [Hi|Hi]; [|apply (count_occ_not_In Nat.eq_dec) in Hi; lia].
    specialize (H x Hi). destruct (Nat.ltb_spec 1 (count_occ Nat.eq_dec l x)); [discriminate | lia].
  - intros H x Hx. specialize (H x). destruct (Nat.ltb_spec 1 (count_occ Nat.eq_dec l x)); [lia | reflexivity].
Qed.

(** tail of a branch *)
Lemma v_branch_tail wl enc prev lid nid b acc r : 0 < nid ->
  v_branch wl enc prev lid nid b acc = Some r <->
  ((forall n, In n b -> In n wl /\ ~ In n enc) /\ r = (fst acc ++ b, snd acc ++ b)).
Proof.
  revert nid acc. induction b as [|n b IH]; intros nid acc Hn; cbn [v_branch].
  - rewrite !app_nil_r. destruct acc as [a l]. cbn. split; [intros H; injection H as <-; split; [intros ? []|reflexivity] | intros [_ ->]; reflexivity].
  - destruct (memN n wl) eqn:Ew; cbn [negb].
    2:{ split; [discriminate|]. intros [H _]. destruct (H n (or_introl eq_refl)) as [H1 _]. apply memN_In in H1. congruence. }
    destruct (Nat.ltb_spec 0 nid); [|lia]. destruct (memN n enc) eqn:Ee; cbn [andb].
    { split; [discriminate|]. intros [H1 _]. destruct (H1 n (or_introl eq_refl)) as [_ H2]. apply memN_In in Ee. contradiction. }
    destruct (Nat.eqb_spec nid 0); [lia|]. cbn [andb]. rewrite IH by lia. cbn [fst snd]. rewrite <- !app_assoc. cbn [app].
    apply memN_In in Ew. apply memN_notIn in Ee. split; intros [H1 H2]; (split; [|exact H2]).
    + intros m [<-|Hm]; [split; assumption | apply H1; exact Hm].
    + intros m Hm. apply H1. right. exact Hm.
Qed.
Definition lvl_leaves (lid : nat) (b : list nat) : list nat := match lid with 0 => b | _ => tl b end.
Lemma v_branch_head wl enc prev lid n b acc r :
  v_branch wl enc prev lid 0 (n :: b) acc = Some r <->
  (In n wl /\ (0 < lid -> In n prev) /\ (forall m, In m b -> In m wl /\ ~ In m enc) /\ r = (fst acc ++ n :: b, snd acc ++ lvl_leaves lid (n :: b))).
Proof.
  cbn [v_branch]. destruct (memN n wl) eqn:Ew; cbn [negb].
  2:{ split; [discriminate|]. intros (H & _). apply memN_In in H. congruence. }
  apply memN_In in Ew. change (0 <? 0) with false. cbn [andb]. change (0 =? 0) with true. cbn [andb].
  destruct (Nat.ltb_spec 0 lid) as [Hl|Hl].
  - destruct (memN n prev) eqn:Ep; cbn [negb].
    + apply memN_In in Ep. rewrite v_branch_tail by lia. cbn [fst snd]. rewrite <- app_assoc. cbn [app]. destruct lid; [lia|]. cbn [lvl_leaves tl]. tauto.
    + split; [discriminate|]. intros (_ & H & _). apply memN_notIn in Ep. tauto.
  - rewrite v_branch_tail by lia. cbn [fst snd]. rewrite <- !app_assoc. cbn [app]. destruct lid; [|lia]. cbn [lvl_leaves].
    split; [intros [H1 H2]; repeat split; try assumption; try lia; apply H1; assumption | tauto].
Qed.
Lemma v_level_ok wl enc prev lid level acc r :
  v_level wl enc prev lid level acc = Some r <->
  ((forall b, In b level -> 2 <= length b /\ (forall n, In n b -> In n wl) /\ (0 < lid -> In (hd 0 b) prev) /\ (forall m, In m (tl b) -> ~ In m enc)) /\
   r = (fst acc ++ concat level, snd acc ++ concat (map (lvl_leaves lid) level))).
Proof.
  revert acc. induction level as [|b level IH]; intros acc; cbn [v_level map concat].
  - rewrite !app_nil_r. destruct acc. cbn. split; [intros H; injection H as <-; split; [intros ? []|reflexivity] | intros [_ ->]; reflexivity].
  - destruct (Nat.ltb_spec (length b) 2) as [Hb|Hb].
    { split; [discriminate|]. intros [H _]. destruct (H b (or_introl eq_refl)). lia. }
    destruct b as [|n b]; [cbn in Hb; lia|].
    destruct (v_branch wl enc prev lid 0 (n :: b) acc) as [acc'|] eqn:E.
    + apply v_branch_head in E. destruct E as (E1 & E2 & E3 & ->). rewrite IH. cbn [fst snd]. rewrite <- !app_assoc.
      split; intros [H1 H2]; (split; [|exact H2]).
      * intros b' [<-|Hb']; [|apply H1; exact Hb']. split; [exact Hb|]. split; [intros m [<-|Hm]; [exact E1 | apply E3; exact Hm]|]. split; [exact E2|]. intros m Hm. apply E3. exact Hm.
      * intros b' Hb'. apply H1. right. exact Hb'.
    + split; [discriminate|]. intros [H _]. exfalso. destruct (H (n :: b) (or_introl eq_refl)) as (_ & H1 & H2 & H3).
      assert (C : v_branch wl enc prev lid 0 (n :: b) acc = Some (fst acc ++ n :: b, snd acc ++ lvl_leaves lid (n :: b))).
      { apply v_branch_head. split; [apply H1; left; reflexivity|]. split; [exact H2|]. split; [|reflexivity]. intros m Hm. split; [apply H1; right; exact Hm | apply H3; exact Hm]. }
      congruence.
Qed.

Definition level_good (wl : list nat) (level : list (list nat)) : Prop :=
  level <> [] /\ (forall b, In b level -> 2 <= length b /\ forall n, In n b -> In n wl) /\ NoDup (concat level).
Fixpoint chain (prev : list nat) (levels : list (list (list nat))) : Prop :=
  match levels with [] => True | l :: r => (forall b, In b l -> In (hd 0 b) prev) /\ chain (leaves l) r end.

Lemma NoDup_leaves level : NoDup (concat level) -> NoDup (leaves level).
Proof.
  unfold leaves. induction level as [|b level IH]; cbn [map concat]; intros H; [constructor|].
  destruct b as [|n b]; cbn [tl app] in *; [apply IH; exact H|]. apply NoDup_cons_iff in H. destruct H as [_ H].
  assert (Ht : forall m, In m (concat (map (@tl nat) level)) -> In m (concat level)).
  { intros m Hm. apply in_concat in Hm. destruct Hm as (c & Hc & Hm). apply in_map_iff in Hc. destruct Hc as (c' & <- & Hc'). apply in_concat. exists c'. split; [exact Hc'|]. destruct c'; [destruct Hm | right; exact Hm]. }
  induction b as [|m b IHb]; cbn [app] in *; [apply IH; exact H|]. apply NoDup_cons_iff in H. destruct H as [H1 H2].
  constructor; [|apply IHb; exact H2]. intros C. apply H1. apply in_app_iff. apply in_app_iff in C. destruct C as [C|C]; [left; exact C | right; apply Ht; exact C].
Qed.
Lemma NoDup_app_iff' (a b : list nat) : NoDup (a ++ b) <-> NoDup a /\ NoDup b /\ forall x, In x a -> ~ In x b.
Proof.
  induction a as [|x a IH]; cbn [app]; [split; [intros H; split; [constructor|split; [exact H | intros ? []]] | tauto]|].
  rewrite !NoDup_cons_iff, IH, in_app_iff. split.
  - intros (H1 & H2 & H3 & H4). split; [split; [tauto|assumption]|]. split; [assumption|]. intros y [<-|Hy]; [tauto | apply H4; exact Hy].
  - intros ((H1 & H2) & H3 & H4). split; [intros [C|C]; [tauto | exact (H4 x (or_introl eq_refl) C)]|]. split; [assumption|]. split; [assumption|]. intros y Hy. apply H4. right. exact Hy.
Qed.
Lemma in_leaves m level : In m (leaves level) <-> exists b, In b level /\ In m (tl b).
Proof.
  unfold leaves. rewrite in_concat. split.
  - intros (c & Hc & Hm). apply in_map_iff in Hc. destruct Hc as (b & <- & Hb). exists b. split; assumption.
  - intros (b & Hb & Hm). exists (tl b). split; [apply in_map; exact Hb | exact Hm].
Qed.
Lemma v_levels_pos wl levels : forall enc prev lid, NoDup enc ->
  (v_levels wl enc prev (S lid) levels = true <->
   (forall l, In l levels -> level_good wl l) /\ NoDup (enc ++ concat (map leaves levels)) /\ chain prev levels).
Proof.
  induction levels as [|level levels IH]; intros enc prev lid He; cbn [v_levels map concat chain].
  { rewrite app_nil_r. split; [intros _; split; [intros ? []|split; [exact He | exact I]] | reflexivity]. }
  destruct (Nat.eqb_spec (length level) 0) as [E0|E0].
  { split; [discriminate|]. intros (H & _). destruct (H level (or_introl eq_refl)) as [H1 _]. destruct level; [congruence | discriminate]. }
  change (S lid =? 0) with false. cbn [andb].
  destruct (v_level wl enc prev (S lid) level ([], [])) as [[alln leafs]|] eqn:E.
  2:{ split; [discriminate|]. intros (H1 & H2 & H3 & _). exfalso. destruct (H1 level (or_introl eq_refl)) as (_ & G2 & _).
      assert (C : v_level wl enc prev (S lid) level ([], []) = Some ([] ++ concat level, [] ++ concat (map (lvl_leaves (S lid)) level))); [|congruence].
      apply v_level_ok. split; [|reflexivity]. intros b Hb. destruct (G2 b Hb) as [G3 G4]. split; [exact G3|]. split; [exact G4|]. split; [intros _; apply H3; exact Hb|].
      intros m Hm C. apply NoDup_app_iff' in H2. destruct H2 as (_ & _ & H2). apply (H2 m C). apply in_app_iff. left. apply in_leaves. exists b. split; assumption. }
  apply v_level_ok in E. cbn [fst snd app] in E. destruct E as [E1 E2]. injection E2 as -> ->.
  change (concat (map (lvl_leaves (S lid)) level)) with (leaves level).
  destruct (is_unique_list (concat level)) eqn:Eu; cbn [negb].
  2:{ split; [discriminate|]. intros (H & _). destruct (H level (or_introl eq_refl)) as (_ & _ & H1). apply is_unique_NoDup in H1. congruence. }
  apply is_unique_NoDup in Eu.
  assert (He' : NoDup (enc ++ leaves level)).
  { apply NoDup_app_iff'. split; [exact He|]. split; [apply NoDup_leaves; exact Eu|]. intros x Hx Hl. apply in_leaves in Hl. destruct Hl as (b & Hb & Hm). destruct (E1 b Hb) as (_ & _ & _ & H4). exact (H4 x Hm Hx). }
  rewrite IH by exact He'. rewrite <- app_assoc. split.
  - intros (H1 & H2 & H3). split.
    { intros l [<-|Hl]; [|apply H1; exact Hl]. split; [destruct level; [cbn in E0; lia | discriminate]|]. split; [|exact Eu]. intros b Hb. destruct (E1 b Hb) as (A1 & A2 & _). split; assumption. }
    split; [exact H2|]. split; [|exact H3]. intros b Hb. destruct (E1 b Hb) as (_ & _ & A3 & _). apply A3. lia.
  - intros (H1 & H2 & H3 & H4). split; [intros l Hl; apply H1; right; exact Hl|]. split; assumption.
Qed.
Lemma chain_nth prev levels : chain prev levels <->
  (forall level b, nth_error levels 0 = Some level -> In b level -> In (hd 0 b) prev) /\
  (forall k above level b, nth_error levels k = Some above -> nth_error levels (S k) = Some level -> In b level -> In (hd 0 b) (leaves above)).
Proof.
  revert prev. induction levels as [|l levels IH]; intros prev; cbn [chain].
  - split; [intros _; split; [intros ? ? H; discriminate | intros [|?] ? ? ? H; discriminate] | trivial].
  - rewrite IH. split.
    + intros (H1 & H2 & H3). split; [intros level b H Hb; injection H as <-; apply H1; exact Hb|].
      intros [|k] above level b Ha Hl Hb; [injection Ha as <-; exact (H2 level b Hl Hb) | exact (H3 k above level b Ha Hl Hb)].
    + intros (H1 & H2). split; [intros b Hb; exact (H1 l b eq_refl Hb)|]. split; [intros level b H Hb; exact (H2 0 l level b eq_refl H Hb) | intros k; exact (H2 (S k))].
Qed.

Lemma v_levels_first wl level rest :
  v_levels wl [] [] 0 (level :: rest) = true <->
  exists b, level = [b] /\ 2 <= length b /\ (forall n, In n b -> In n wl) /\ NoDup b /\
    v_levels wl b b 1 rest = true.
Proof.
  cbn [v_levels]. destruct level as [|b [|b' level]].
  - cbn. split; [discriminate | intros (b & H & _); discriminate].
  - cbn [length Nat.eqb Nat.ltb Nat.leb andb]. destruct (v_level wl [] [] 0 [b] ([], [])) as [[alln leafs]|] eqn:E.
    + apply v_level_ok in E. destruct E as [E1 E2]. cbn [fst snd app map concat lvl_leaves] in E2. rewrite app_nil_r in E2. injection E2 as -> ->.
      destruct (E1 b (or_introl eq_refl)) as (A1 & A2 & _). destruct (is_unique_list b) eqn:Eu; cbn [negb app].
      * apply is_unique_NoDup in Eu. split; [intros H; exists b; repeat split; assumption | intros (c & Hc & _ & _ & _ & H); injection Hc as <-; exact H].
      * split; [discriminate|]. intros (c & Hc & _ & _ & H & _). injection Hc as <-. apply is_unique_NoDup in H. congruence.
    + split; [discriminate|]. intros (c & Hc & H1 & H2 & _). injection Hc as <-. exfalso.
      assert (C : v_level wl [] [] 0 [b] ([], []) = Some ([] ++ concat [b], [] ++ concat (map (lvl_leaves 0) [b]))); [|congruence].
      apply v_level_ok. split; [|reflexivity]. intros c [<-|[]]. split; [exact H1|]. split; [exact H2|]. split; [lia|]. intros m _ [].
  - cbn. split; [discriminate | intros (c & H & _); discriminate].
Qed.

Lemma verify_iff levels wl : verify_topology levels wl = true <-> valid_topology levels wl.
Proof.
  unfold verify_topology. destruct levels as [|level rest].
  { cbn. split; [discriminate|]. intros [(b & r & H) _ _ _ _]. discriminate. }
  cbn [length Nat.eqb]. rewrite v_levels_first. split.
  - intros (b & -> & H1 & H2 & H3 & H4). apply v_levels_pos in H4; [|exact H3]. destruct H4 as (G1 & G2 & G3).
    apply chain_nth in G3. destruct G3 as [C1 C2].
    destruct b as [|r b]; [cbn in H1; lia|].
    constructor.
    + eexists. eexists. reflexivity.
    + intros l c [<-|Hl].
      * split; [discriminate|]. intros [<-|[]]. split; assumption.
      * destruct (G1 l Hl) as (A1 & A2 & _). split; [exact A1|]. intros Hc. exact (A2 c Hc).
    + intros l [<-|Hl]; [cbn [concat]; rewrite app_nil_r; exact H3|]. destruct (G1 l Hl) as (_ & _ & A3). exact A3.
    + unfold tree_root. cbn [hd map concat]. change (leaves [r :: b]) with (b ++ []). rewrite app_nil_r. exact G2.
    + intros k above l c Ha Hl Hc. destruct k as [|k].
      * cbn in Ha. injection Ha as <-. destruct (C1 l c Hl Hc) as [C|C]; [right; split; [reflexivity | symmetry; exact C] | left; cbn; rewrite app_nil_r; exact C].
      * left. exact (C2 k above l c Ha Hl Hc).
  - intros [(b & r & Hb) V2 V3 V4 V5]. injection Hb as -> ->. exists b.
    destruct (V2 [b] b (or_introl eq_refl)) as [_ Vb]. destruct (Vb (or_introl eq_refl)) as [B1 B2].
    assert (B3 : NoDup b). { specialize (V3 [b] (or_introl eq_refl)). cbn [concat] in V3. rewrite app_nil_r in V3. exact V3. }
    split; [reflexivity|]. split; [exact B1|]. split; [exact B2|]. split; [exact B3|].
    apply v_levels_pos; [exact B3|]. destruct b as [|n b]; [cbn in B1; lia|].
    split; [intros l Hl; destruct (V2 l [] (or_intror Hl)) as [A1 _]; split; [exact A1|]; split; [intros c Hc; apply (V2 l c (or_intror Hl)); exact Hc | apply V3; right; exact Hl]|].
    split.
    + unfold tree_root in V4. cbn [hd map concat] in V4. change (leaves [n :: b]) with (b ++ []) in V4. rewrite app_nil_r in V4. exact V4.
    + apply chain_nth. split.
      * intros l c Hl Hc. destruct (V5 0 [n :: b] l c eq_refl Hl Hc) as [C|[_ C]]; [right; cbn in C; rewrite app_nil_r in C; exact C | left; symmetry; exact C].
      * intros k above l c Ha Hl Hc. destruct (V5 (S k) above l c Ha Hl Hc) as [C|[C _]]; [exact C | discriminate].
Qed.

(** ** unique nodes and delays *)
Lemma fold_add_new l : forall acc, NoDup acc -> NoDup (fold_left add_new l acc) /\ (forall n, In n (fold_left add_new l acc) <-> In n acc \/ In n l) /\
  exists t, fold_left add_new l acc = acc ++ t.
Proof.
  induction l as [|a l IH]; intros acc H; cbn [fold_left]; [split; [exact H|split; [intros; cbn; tauto | exists []; rewrite app_nil_r; reflexivity]]|].
  assert (Hn : NoDup (add_new acc a) /\ (forall n, In n (add_new acc a) <-> In n acc \/ n = a) /\ exists t, add_new acc a = acc ++ t).
  { unfold add_new. destruct (memN a acc) eqn:E.
    - apply memN_In in E. split; [exact H|]. split; [intros n; split; [tauto | intros [C| ->]; assumption] | exists []; rewrite app_nil_r; reflexivity].
    - apply memN_notIn in E. split; [apply NoDup_app_iff'; split; [exact H|]; split; [constructor; [intros []|constructor]|]; intros x Hx [<-|[]]; contradiction|].
      split; [intros n; rewrite in_app_iff; cbn; split; [intros [?|[?|[]]]; [left; assumption | right; congruence] | intros [?| ->]; [left; assumption | right; left; reflexivity]] | eexists; reflexivity]. }
  destruct Hn as (N1 & N2 & t1 & N3). destruct (IH _ N1) as (I1 & I2 & t2 & I3). split; [exact I1|]. split.
  - intros n. rewrite I2, N2. cbn [In]. split; [intros [[?|?]|?]; auto | intros [?|[?|?]]; auto].
  - exists (t1 ++ t2). rewrite I3, N3, app_assoc. reflexivity.
Qed.
Lemma unique_flat levels : unique_nodes levels = fold_left add_new (concat (map (@concat nat) levels)) [].
Proof.
  unfold unique_nodes. generalize (@nil nat) as acc. induction levels as [|l levels IH]; intros acc; cbn [fold_left map concat]; [reflexivity|].
  rewrite fold_left_app, IH. f_equal. revert acc. induction l as [|b l IHl]; intros acc; cbn [fold_left concat]; [reflexivity|]. rewrite fold_left_app. apply IHl.
Qed.
Lemma unique_nodes_spec levels : NoDup (unique_nodes levels) /\ (forall n, In n (unique_nodes levels) <-> exists l b, In l levels /\ In b l /\ In n b).
Proof.
  rewrite unique_flat. destruct (fold_add_new (concat (map (@concat nat) levels)) [] (NoDup_nil _)) as (H1 & H2 & _). split; [exact H1|].
  intros n. rewrite H2. split.
  - intros [[]|H]. apply in_concat in H. destruct H as (c & Hc & Hn). apply in_map_iff in Hc. destruct Hc as (l & <- & Hl). apply in_concat in Hn. destruct Hn as (b & Hb & Hn). exists l, b. repeat split; assumption.
  - intros (l & b & Hl & Hb & Hn). right. apply in_concat. exists (concat l). split; [apply in_map; exact Hl | apply in_concat; exists b; split; assumption].
Qed.
Lemma unique_nodes_head n b0 l0 rest : exists t, unique_nodes (((n :: b0) :: l0) :: rest) = n :: t.
Proof.
  rewrite unique_flat. cbn [map concat app fold_left]. change (add_new [] n) with [n].
  destruct (fold_add_new ((b0 ++ concat l0) ++ concat (map (@concat nat) rest)) [n]) as (_ & _ & t & H); [constructor; [intros []|constructor]|]. rewrite <- app_assoc in H. exists t. rewrite <- app_assoc. exact H.
Qed.

Lemma index_of_In n l : In n l -> exists i, index_of n l = Ok i /\ nth_error l i = Some n.
Proof.
  induction l as [|m l IH]; intros H; [destruct H|]. cbn [index_of]. destruct (Nat.eqb_spec m n) as [->|Hne]; [exists 0; split; reflexivity|].
  destruct H as [H|H]; [congruence|]. destruct (IH H) as (i & E & Hi). rewrite E. exists (S i). split; [reflexivity | exact Hi].
Qed.
Lemma index_of_nth n l i : index_of n l = Ok i -> nth_error l i = Some n.
Proof.
  revert i. induction l as [|m l IH]; intros i H; cbn in H; [discriminate|]. destruct (Nat.eqb_spec m n) as [->|Hne]; [injection H as <-; reflexivity|].
  destruct (index_of n l) as [j|]; [|discriminate]. cbn in H. injection H as <-. cbn. apply IH. reflexivity.
Qed.

Fixpoint set_all (nodes : list nat) (asg : list (nat * Z)) (ds : list Z) : res (list Z) :=
  match asg with [] => Ok ds | (n, v) :: r => do i <- index_of n nodes; set_all nodes r (upd i v ds) end.
Fixpoint assigns (d : Z) (lid : nat) (levels : list (list (list nat))) : list (nat * Z) :=
  match levels with [] => [] | l :: r => map (fun n => (n, (Z.of_nat lid * d)%Z)) (leaves l) ++ assigns d (S lid) r end.
Lemma set_all_app nodes a b ds : set_all nodes (a ++ b) ds = do ds' <- set_all nodes a ds; set_all nodes b ds'.
Proof. revert ds. induction a as [|[n v] a IH]; intros ds; [reflexivity|]. cbn. destruct (index_of n nodes); cbn; [apply IH | reflexivity]. Qed.
Lemma set_delays_all nodes ls v ds : set_delays nodes ls v ds = set_all nodes (map (fun n => (n, v)) ls) ds.
Proof. revert ds. induction ls as [|n ls IH]; intros ds; [reflexivity|]. cbn. destruct (index_of n nodes); cbn; [apply IH | reflexivity]. Qed.
Lemma delay_level_all nodes v level ds : delay_level nodes v level ds = set_all nodes (map (fun n => (n, v)) (leaves level)) ds.
Proof.
  revert ds. induction level as [|b level IH]; intros ds; [reflexivity|]. unfold leaves. cbn [delay_level map concat]. rewrite map_app, set_all_app, set_delays_all.
  destruct (set_all nodes (map (fun n => (n, v)) (tl b)) ds); cbn [bind]; [apply IH | reflexivity].
Qed.
Lemma delay_levels_all nodes d levels : forall lid ds, delay_levels nodes d lid levels ds = set_all nodes (assigns d lid levels) ds.
Proof.
  induction levels as [|l levels IH]; intros lid ds; [reflexivity|]. cbn [delay_levels assigns]. rewrite set_all_app, delay_level_all.
  destruct (set_all nodes _ ds); cbn [bind]; [apply IH | reflexivity].
Qed.
Lemma set_all_ok nodes asg : forall ds, (forall n v, In (n, v) asg -> In n nodes) -> NoDup (map fst asg) -> length ds = length nodes ->
  exists ds', set_all nodes asg ds = Ok ds' /\ length ds' = length nodes /\
    (forall n v i, In (n, v) asg -> index_of n nodes = Ok i -> nth_error ds' i = Some v) /\
    (forall i, (forall n v, In (n, v) asg -> index_of n nodes <> Ok i) -> nth_error ds' i = nth_error ds i).
Proof.
  induction asg as [|[n v] asg IH]; intros ds Hin Hnd Hl; cbn [set_all].
  { exists ds. split; [reflexivity|]. split; [exact Hl|]. split; [intros ? ? ? []| reflexivity]. }
  destruct (index_of_In n nodes (Hin n v (or_introl eq_refl))) as (i & E & Hi). rewrite E. cbn [bind].
  cbn [map fst] in Hnd. apply NoDup_cons_iff in Hnd. destruct Hnd as [Hn Hnd].
  destruct (IH (upd i v ds)) as (ds' & E' & L & G1 & G2); [intros; apply (Hin n0 v0); right; assumption | exact Hnd | rewrite upd_length; exact Hl|].
  exists ds'. split; [exact E'|]. split; [exact L|].
  assert (Hilt : i < length ds). { rewrite Hl. apply nth_error_Some. congruence. }
  split.
  - intros n' v' j [Hj|Hj] Ej; [|apply (G1 n' v' j); assumption]. injection Hj as <- <-. assert (j = i) by congruence. subst j.
    rewrite G2; [apply upd_nth_same; exact Hilt|]. intros n' v' Hn' C. apply index_of_nth in C. assert (n' = n) by congruence. subst n'.
    apply Hn. change n with (fst (n, v')). apply in_map. exact Hn'.
  - intros j Hj. rewrite G2; [apply upd_nth_other; intros ->; apply (Hj n v (or_introl eq_refl)); exact E|]. intros n' v' Hn'. apply (Hj n' v'). right. exact Hn'.
Qed.
Lemma assigns_fst d levels lid : map fst (assigns d lid levels) = concat (map leaves levels).
Proof.
  revert lid. induction levels as [|l levels IH]; intros lid; [reflexivity|]. cbn [assigns map concat]. rewrite map_app, IH, map_map. cbn [fst]. rewrite map_id. reflexivity.
Qed.
Lemma assigns_in d levels : forall lid k level b n, nth_error levels k = Some level -> In b level -> In n (tl b) -> In (n, (Z.of_nat (lid + k) * d)%Z) (assigns d lid levels).
Proof.
  induction levels as [|l levels IH]; intros lid k level b n Hk Hb Hn; [destruct k; discriminate|]. cbn [assigns]. apply in_app_iff. destruct k as [|k].
  - left. injection Hk as <-. rewrite Nat.add_0_r. apply (in_map (fun n => (n, (Z.of_nat lid * d)%Z))). apply in_leaves. exists b. split; assumption.
  - right. replace (lid + S k) with (S lid + k) by lia. apply (IH (S lid) k level b n); assumption.
Qed.
Lemma delays_ok levels wl d : verify_topology levels wl = true ->
  exists ns ds, unique_nodes levels = tree_root levels :: ns /\ async_delays levels d = Ok ds /\ length ds = length ns /\
    (forall n, In n ns <-> In n (concat (map leaves levels))) /\ NoDup ns /\
    forall k level b n, nth_error levels k = Some level -> In b level -> In n (tl b) ->
      exists i, nth_error ns i = Some n /\ nth_error ds i = Some (Z.of_nat k * d)%Z.
Proof.
  intros Hv. apply verify_iff in Hv. destruct Hv as [(b0 & rest & Hb0) V2 V3 V4 V5]. 
  destruct (V2 [b0] b0) as [_ Vb]; [rewrite Hb0; left; reflexivity|]. destruct (Vb (or_introl eq_refl)) as [B1 _]. destruct b0 as [|r b0]; [cbn in B1; lia|].
  destruct (unique_nodes_head r b0 [] rest) as (ns & Hns). rewrite <- Hb0 in Hns.
  assert (Hr : tree_root levels = r) by (rewrite Hb0; reflexivity). rewrite Hr in *.
  destruct (unique_nodes_spec levels) as [U1 U2]. rewrite Hns in U1, U2. apply NoDup_cons_iff in U1. destruct U1 as [U1 U1'].
  apply NoDup_cons_iff in V4. destruct V4 as [V4 V4'].
  assert (Hset : forall n, In n ns <-> In n (concat (map leaves levels))).
  { intros n. split.
    - intros Hn. destruct (U2 n) as [U3 _]. destruct (U3 (or_intror Hn)) as (l & b & Hl & Hb & Hnb).
      apply in_concat. destruct (In_nth_error _ _ Hl) as [k Hk].
      destruct (V2 l b Hl) as [_ Vl]. destruct (Vl Hb) as [Vlen _]. destruct b as [|h b]; [destruct Hnb|]. destruct Hnb as [<-|Hnb].
      + destruct k as [|k].
        * rewrite Hb0 in Hk. injection Hk as <-. destruct Hb as [Hb|[]]. injection Hb as <- <-. contradiction.
        * assert (exists above, nth_error levels k = Some above) as [above Ha].
          { destruct (nth_error levels k) eqn:E; [eexists; reflexivity|]. apply nth_error_None in E. assert (S k < length levels) by (apply nth_error_Some; congruence). lia. }
          destruct (V5 k above l (h :: b) Ha Hk Hb) as [C|[-> C]]; [|exfalso; apply U1; cbn in C; rewrite <- C; exact Hn].
          exists (leaves above). split; [apply in_map; exact (nth_error_In _ _ Ha) | exact C].
      + exists (leaves l). split; [apply in_map; exact Hl|]. apply in_leaves. exists (h :: b). split; assumption.
    - intros Hn. apply in_concat in Hn. destruct Hn as (c & Hc & Hn). apply in_map_iff in Hc. destruct Hc as (l & <- & Hl).
      assert (Hne : n <> r) by (intros ->; apply V4; apply in_concat; exists (leaves l); split; [apply in_map; exact Hl | exact Hn]).
      apply in_leaves in Hn. destruct Hn as (b & Hb & Hn). destruct (proj2 (U2 n)) as [C|C]; [|congruence|exact C].
      exists l, b. repeat split; try assumption. destruct b; [destruct Hn | right; exact Hn]. }
  destruct (set_all_ok (r :: ns) (assigns d 0 levels) (repeat 0%Z (length (r :: ns)))) as (ds & E & L & G & _).
  { intros n v Hn. right. apply Hset. rewrite <- (assigns_fst d levels 0). change n with (fst (n, v)). apply in_map. exact Hn. }
  { rewrite assigns_fst. exact V4'. }
  { apply repeat_length. }
  exists ns, (tl ds). split; [exact Hns|]. split; [unfold async_delays; rewrite Hns, delay_levels_all, E; reflexivity|].
  split; [destruct ds; cbn in *; lia|]. split; [exact Hset|]. split; [exact U1'|].
  intros k level b n Hk Hb Hn. assert (Ha := assigns_in d levels 0 k level b n Hk Hb Hn). cbn [Nat.add] in Ha.
  assert (Hin : In n (concat (map leaves levels))). { apply in_concat. exists (leaves level). split; [apply in_map; exact (nth_error_In _ _ Hk) | apply in_leaves; exists b; split; assumption]. }
  assert (Hne : n <> r) by (intros ->; contradiction).
  destruct (index_of_In n (r :: ns)) as (i & Ei & Hi); [right; apply Hset; exact Hin|].
  destruct i as [|i]; [injection Hi as Hi; congruence|]. exists i. split; [exact Hi|].
  assert (Hd := G n _ (S i) Ha Ei). destruct ds; [discriminate | exact Hd].
Qed.
