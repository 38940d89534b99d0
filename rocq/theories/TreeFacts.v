(** Rooted view of a tree, and the invariant of its orientation. *)
From Verif Require Import Base BaseFacts Buffers BufFacts CentrFacts Tree TreeSpec.
Open Scope nat_scope.

Lemma walk_cons nbrs u v x p : walk nbrs u v (x :: p) -> x = u.
Proof. destruct p; simpl; tauto. Qed.
Lemma walk_step nbrs u v y p : In y (nth u nbrs []) -> walk nbrs y v p -> walk nbrs u v (u :: p).
Proof.
  intros Hy Hw. destruct p as [|z p]; [destruct Hw|]. assert (z = y) by (eapply walk_cons; exact Hw). subst z.
  cbn [walk tl]. auto.
Qed.
Lemma walk_inv nbrs u v x y p : walk nbrs u v (x :: y :: p) -> x = u /\ In y (nth u nbrs []) /\ walk nbrs y v (y :: p).
Proof. simpl. tauto. Qed.
Lemma walk_suffix nbrs u v p q : walk nbrs u v p -> In q p -> exists p1 p2, p = p1 ++ q :: p2 /\ walk nbrs q v (q :: p2).
Proof.
  revert u; induction p as [|x p IH]; intros u Hw Hin; [destruct Hin|].
  destruct Hin as [->|Hin].
  - exists [], p. split; [reflexivity|]. pose proof (walk_cons _ _ _ _ _ Hw). subst q. exact Hw.
  - destruct p as [|y p]; [destruct Hin|]. apply walk_inv in Hw. destruct Hw as [-> [Hy Hw]].
    destruct (IH y Hw Hin) as [p1 [p2 [E H]]]. exists (u :: p1), p2. split; [rewrite E; reflexivity | exact H].
Qed.

(** Rooted view: parents and depths. *)
Record rooted (n : nat) (nbrs : list (list nat)) (r : nat) (par dep : nat -> nat) : Prop := {
  r_root : r < n;
  r_len : length nbrs = n;
  r_nodup : forall k, k < n -> NoDup (nth k nbrs []);
  r_dep0 : dep r = 0;
  r_par : forall k, k < n -> k <> r -> par k < n /\ dep k = S (dep (par k)) /\ dep k < n;
  r_adj : forall k q, k < n -> (In q (nth k nbrs []) <-> (q < n /\ ((k <> r /\ q = par k) \/ (q <> r /\ par q = k))))
}.

Lemma path_range n nbrs : is_tree n nbrs -> forall p u v, u < n -> walk nbrs u v p -> forall x, In x p -> x < n.
Proof.
  intros T p. induction p as [|a p IH]; intros u v Hu Hw x Hx; [destruct Hx|].
  pose proof (walk_cons _ _ _ _ _ Hw). subst a. destruct Hx as [<-|Hx]; [exact Hu|].
  destruct p as [|y p]; [destruct Hx|]. apply walk_inv in Hw. destruct Hw as [_ [Hy Hw]].
  eapply IH; [|exact Hw|exact Hx]. eapply t_range; eauto.
Qed.

Lemma NoDup_le_length n (l : list nat) : NoDup l -> (forall x, In x l -> x < n) -> length l <= n.
Proof.
  intros H1 H2. rewrite <- (seq_length n 0). apply NoDup_incl_length; [exact H1|]. intros x Hx. apply in_seq. specialize (H2 x Hx). lia.
Qed.

(** functional choice of the path to the root by bounded search is not needed:
    parents and depths exist node by node, and are collected into lists. *)
Lemma choose_list {B} n (P : nat -> B -> Prop) : (forall k, k < n -> exists b, P k b) -> forall d : B, exists f : nat -> B, forall k, k < n -> P k (f k).
Proof.
  intros H d. induction n as [|n IH].
  - exists (fun _ => d). intros; lia.
  - destruct IH as [f Hf]; [intros k Hk; apply H; lia|]. destruct (H n (Nat.lt_succ_diag_r n)) as [b Hb].
    exists (fun k => if Nat.eqb k n then b else f k). intros k Hk. destruct (Nat.eqb_spec k n) as [->|]; [exact Hb | apply Hf; lia].
Qed.

Lemma tree_rooted n nbrs r : is_tree n nbrs -> r < n ->
  exists par dep, rooted n nbrs r par dep /\
    (forall k, k < n -> k <> r -> next_hop nbrs r k (par k)) /\ (forall k, k < n -> distance nbrs r k (dep k)).
Proof.
  intros T Hr.
  destruct (choose_list n (fun k p => walk nbrs k r p /\ NoDup p) (fun k Hk => t_path _ _ T k r Hk Hr) []) as [P HP].
  set (par := fun k => nth 1 (P k) 0). set (dep := fun k => length (P k) - 1).
  assert (P0 : P r = [r]).
  { destruct (HP r Hr) as [W N]. apply (t_unique _ _ T r r); auto; [simpl; auto | repeat constructor; simpl; tauto]. }
  assert (PS : forall k, k < n -> k <> r -> exists p, P k = k :: par k :: p /\ par k < n /\ In (par k) (nth k nbrs []) /\
               P (par k) = par k :: p /\ ~ In k (par k :: p)).
  { intros k Hk Hne. destruct (HP k Hk) as [W N]. unfold par. destruct (P k) as [|x [|y p]] eqn:E; [destruct W | simpl in W; destruct W; congruence|].
    apply walk_inv in W. destruct W as [-> [Hy W]]. exists p. cbn [nth]. split; [reflexivity|].
    assert (Hyn : y < n) by (eapply t_range; eauto). split; [exact Hyn|]. split; [exact Hy|].
    apply NoDup_cons_iff in N. destruct N as [N1 N2]. split; [|exact N1].
    destruct (HP y Hyn) as [W' N']. apply (t_unique _ _ T y r); auto. }
  exists par, dep. split; [|split].
  - constructor; try exact Hr; try apply T.
    + unfold dep. rewrite P0. reflexivity.
    + intros k Hk Hne. destruct (PS k Hk Hne) as [p [E [H1 [_ [E2 _]]]]]. split; [exact H1|].
      destruct (HP k Hk) as [W N]. assert (HL := NoDup_le_length n (P k) N (path_range n nbrs T (P k) k r Hk W)).
      unfold dep. rewrite E2. rewrite E in *. simpl in *. lia.
    + intros k q Hk. split.
      * intros Hq. assert (Hqn : q < n) by (eapply t_range; eauto). split; [exact Hqn|].
        assert (Hne : q <> k) by (intros ->; exact (t_irrefl _ _ T k Hk Hq)).
        destruct (HP k Hk) as [Wk Nk]. destruct (in_dec Nat.eq_dec q (P k)) as [Hin|Hout].
        -- left. destruct (walk_suffix _ _ _ _ _ Wk Hin) as [p1 [p2 [E Wq]]].
           destruct p1 as [|x p1]; [rewrite E in Wk; apply walk_cons in Wk; congruence|].
           assert (x = k) by (rewrite E in Wk; apply walk_cons in Wk; exact Wk). subst x.
           assert (Nq : NoDup (q :: p2)) by (rewrite E in Nk; apply (NoDup_app_inv (k :: p1)) in Nk; tauto).
           assert (Nkq : ~ In k (q :: p2)).
           { rewrite E in Nk. cbn [app] in Nk. apply NoDup_cons_iff in Nk. intros Hc. apply (proj1 Nk). apply in_or_app. right; exact Hc. }
           assert (EP : P k = k :: q :: p2).
           { apply (t_unique _ _ T k r); auto; [eapply walk_step; eauto | constructor; assumption]. }
           split; [|unfold par; rewrite EP; reflexivity]. intros ->. rewrite P0 in EP. discriminate.
        -- right. assert (EP : P q = q :: P k).
           { destruct (HP q Hqn) as [W' N']. apply (t_unique _ _ T q r); auto; [|constructor; assumption].
             eapply walk_step; [|exact Wk]. eapply t_sym; eauto. }
           destruct (P k) as [|x p] eqn:Ek; [destruct Wk|]. pose proof (walk_cons _ _ _ _ _ Wk). subst x.
           split; [|unfold par; rewrite EP; reflexivity]. intros ->. rewrite P0 in EP. discriminate.
      * intros [Hqn [[Hne ->]|[Hne E]]].
        -- destruct (PS k Hk Hne) as [p [_ [_ [H _]]]]. exact H.
        -- destruct (PS q Hqn Hne) as [p [_ [_ [H _]]]]. rewrite E in H. apply (t_sym _ _ T q k Hqn H).
  - intros k Hk Hne. destruct (PS k Hk Hne) as [p [E _]]. destruct (HP k Hk) as [W N]. exists p. rewrite E in *. split; assumption.
  - intros k Hk. destruct (HP k Hk) as [W N]. exists (P k). split; [exact N|]. split; [exact W|].
    unfold dep. destruct (P k) eqn:E; [destruct W | simpl; lia].
Qed.

(** ** The orientation *)
Section Orient.
  Variables (n : nat) (nbrs : list (list nat)) (r : nat) (par dep : nat -> nat).
  Hypothesis T : rooted n nbrs r par dep.

  Definition children (k : nat) : list nat :=
    if Nat.eqb k r then nth k nbrs [] else filter (fun q => negb (Nat.eqb q (par k))) (nth k nbrs []).

  Lemma par_irrefl k : k < n -> k <> r -> par k <> k.
  Proof. intros Hk Hne E. destruct (r_par _ _ _ _ _ T k Hk Hne) as [_ [H _]]. rewrite E in H. lia. Qed.

  Lemma children_In k q : k < n -> (In q (children k) <-> q < n /\ q <> r /\ par q = k).
  Proof.
    intros Hk. unfold children. destruct (Nat.eqb_spec k r) as [->|Hne].
    - rewrite (r_adj _ _ _ _ _ T r q Hk). tauto.
    - rewrite filter_In, (r_adj _ _ _ _ _ T k q Hk). split.
      + intros [[Hq [[_ E]|H]] Hb]; [subst q; rewrite Nat.eqb_refl in Hb; discriminate | tauto].
      + intros [Hq [H1 H2]]. split; [tauto|]. destruct (Nat.eqb_spec q (par k)) as [->|]; [|reflexivity].
        destruct (r_par _ _ _ _ _ T k Hk Hne) as [Hp [Hd _]].
        destruct (r_par _ _ _ _ _ T (par k) Hp H1) as [_ [Hd' _]]. rewrite H2 in Hd'. lia.
  Qed.

  Lemma children_NoDup k : k < n -> NoDup (children k).
  Proof. intros Hk. unfold children. destruct (Nat.eqb k r); [|apply NoDup_filter]; apply T; exact Hk. Qed.

  Lemma nbrs_children k q : k < n -> In q (nth k nbrs []) -> (k <> r /\ q = par k) \/ (q < n /\ q <> r /\ par q = k).
  Proof. intros Hk H. apply (r_adj _ _ _ _ _ T k q Hk) in H. tauto. Qed.

  Definition upl (st : ost) k := nth k (o_up st) [].
  Definition dnl (st : ost) k := nth k (o_down st) [].
  Definition shaped (st : ost) := length (o_up st) = n /\ length (o_down st) = n.

  (** state in which exactly the nodes in [passed] have been visited *)
  Definition vis (passed : list nat) (st : ost) : Prop :=
    shaped st /\
    forall k, k < n ->
      (k = r -> dnl st k = [] /\ upl st k = if memN r passed then nth r nbrs [] else []) /\
      (k <> r -> dnl st k = (if memN (par k) passed then [par k] else []) /\
                 upl st k = if memN (par k) passed then children k else []).

  Lemma get_up st k : shaped st -> k < n -> get (o_up st) k = Ok (upl st k).
  Proof. intros [H _] Hk. apply get_some. apply nth_error_nth'. lia. Qed.
  Lemma get_down st k : shaped st -> k < n -> get (o_down st) k = Ok (dnl st k).
  Proof. intros [_ H] Hk. apply get_some. apply nth_error_nth'. lia. Qed.
  Lemma get_nbrs k : k < n -> get nbrs k = Ok (nth k nbrs []).
  Proof. intros Hk. apply get_some. apply nth_error_nth'. rewrite (r_len _ _ _ _ _ T). exact Hk. Qed.

  Lemma nth_upd_l (l : list (list nat)) i j x : i < length l -> nth j (upd i x l) [] = if Nat.eqb i j then x else nth j l [].
  Proof.
    revert i j; induction l as [|y l IH]; intros [|i] [|j] H; simpl in *; try lia; try reflexivity. apply IH. lia.
  Qed.

  (** the inner loop adds nothing when everything is known *)
  Lemma add_upstream_noop q st l : shaped st -> q < n -> (forall ii, In ii l -> In ii (dnl st q) \/ In ii (upl st q)) ->
    foldM (add_upstream q) l st = Ok st.
  Proof.
    intros Hs Hq. induction l as [|ii l IH]; intros H; [reflexivity|]. cbn [foldM]. unfold add_upstream at 1.
    rewrite get_down, get_up by assumption. cbn [bind].
    assert (E : memN ii (dnl st q) || memN ii (upl st q) = true).
    { apply orb_true_iff. destruct (H ii (or_introl eq_refl)); [left | right]; apply memN_In; assumption. }
    rewrite E. cbn [bind]. apply IH. intros x Hx. apply H. right; exact Hx.
  Qed.

  (** the inner loop on a fresh child *)
  Lemma add_upstream_fresh q node l : forall st, shaped st -> q < n -> dnl st q = [node] -> NoDup l ->
    (forall ii, In ii l -> ~ In ii (upl st q)) ->
    exists st', foldM (add_upstream q) l st = Ok st' /\ shaped st' /\ o_down st' = o_down st /\
      (forall k, k <> q -> upl st' k = upl st k) /\
      upl st' q = upl st q ++ filter (fun ii => negb (Nat.eqb ii node)) l.
  Proof.
    induction l as [|ii l IH]; intros st Hs Hq Hd Hn Hf.
    - exists st. split; [reflexivity|]. split; [exact Hs|]. split; [reflexivity|]. split; [reflexivity|]. simpl. rewrite app_nil_r. reflexivity.
    - apply NoDup_cons_iff in Hn. destruct Hn as [Hn1 Hn2]. cbn [foldM]. unfold add_upstream at 1.
      rewrite get_down, get_up by assumption. cbn [bind]. rewrite Hd.
      assert (E : memN ii (upl st q) = false) by (apply memN_notIn; apply Hf; left; reflexivity). rewrite E, orb_false_r.
      unfold memN. cbn [existsb]. rewrite orb_false_r. cbn [filter]. destruct (Nat.eqb_spec ii node) as [->|Hne]; cbn [negb].
      + cbn [bind]. apply IH; try assumption. intros x Hx. apply Hf. right; exact Hx.
      + cbn [bind]. set (st1 := mkO (upd q (upl st q ++ [ii]) (o_up st)) (o_down st)).
        assert (Hs1 : shaped st1) by (destruct Hs; split; simpl; [rewrite upd_length|]; assumption).
        assert (U1 : upl st1 q = upl st q ++ [ii]).
        { unfold upl at 1. simpl. rewrite nth_upd_l by (destruct Hs; lia). rewrite Nat.eqb_refl. reflexivity. }
        destruct (IH st1 Hs1 Hq Hd Hn2) as [st' [E' [S' [D' [O' U']]]]].
        { intros x Hx Hin. rewrite U1 in Hin. apply in_app_or in Hin. destruct Hin as [Hin|[->|[]]]; [|contradiction].
          exact (Hf x (or_intror Hx) Hin). }
        exists st'. split; [exact E'|]. split; [exact S'|]. split; [exact D'|]. split.
        * intros k Hk. rewrite O' by exact Hk. unfold upl, st1. simpl. rewrite nth_upd_l by (destruct Hs; lia).
          destruct (Nat.eqb_spec q k); [congruence | reflexivity].
        * rewrite U', U1, <- app_assoc. reflexivity.
  Qed.

  (** inside the visit of [node], after the neighbours in [done] *)
  Definition mid (passed : list nat) (node : nat) (done : list nat) (st : ost) : Prop :=
    shaped st /\
    forall k, k < n ->
      (k = r -> dnl st k = [] /\ upl st k = if Nat.eqb node r then done else if memN r passed then nth r nbrs [] else []) /\
      (k <> r -> dnl st k = (if memN (par k) passed || (Nat.eqb (par k) node && memN k done) then [par k] else []) /\
                 upl st k = if memN (par k) passed || (Nat.eqb (par k) node && memN k done) then children k else []).

  Definition closed (passed : list nat) : Prop :=
    forall k, In k passed -> k < n /\ (k = r \/ In (par k) passed).

  Lemma visit_one_ok passed node l1 q l2 st next :
    node < n -> closed passed -> ~ In node passed -> (node = r \/ In (par node) passed) ->
    nth node nbrs [] = l1 ++ q :: l2 -> mid passed node l1 st ->
    exists st', visit_one nbrs node passed (st, next) q = Ok (st', next ++ (if Nat.eqb node r || negb (Nat.eqb q (par node)) then [q] else [])) /\
                mid passed node (l1 ++ [q]) st'.
  Proof.
    intros Hnode Hcl Hnp Hpar Hl [Hs HM].
    assert (Hin : In q (nth node nbrs [])) by (rewrite Hl; apply in_or_app; right; left; reflexivity).
    assert (HND := r_nodup _ _ _ _ _ T node Hnode). rewrite Hl in HND.
    assert (Hql1 : ~ In q l1) by (apply NoDup_remove_2 in HND; intros Hc; apply HND, in_or_app; left; exact Hc).
    assert (Hqn : q < n) by (apply (r_adj _ _ _ _ _ T node q Hnode) in Hin; tauto).
    unfold visit_one. rewrite get_down, get_up by assumption. cbn [bind].
    destruct (nbrs_children node q Hnode Hin) as [[Hnr Eq]|[_ [Hqr Eq]]].
    - (* the parent *)
      destruct Hpar as [|Hpar]; [contradiction|]. rewrite <- Eq in Hpar.
      assert (Hdep : dep node = S (dep q)) by (subst q; apply (r_par _ _ _ _ _ T node Hnode Hnr)).
      assert (HU : In node (upl st q) /\ forall ii, In ii (nth q nbrs []) -> In ii (dnl st q) \/ In ii (upl st q)).
      { destruct (HM q Hqn) as [HMr HMn]. destruct (Nat.eq_dec q r) as [Er|Hqr].
        - destruct (HMr Er) as [_ U]. destruct (Nat.eqb_spec node r); [contradiction|].
          rewrite Er in Hpar. assert (E : memN r passed = true) by (apply memN_In; exact Hpar). rewrite E in U.
          rewrite U, Er. split; [|intros ii Hii; right; exact Hii].
          apply (r_adj _ _ _ _ _ T r node (r_root _ _ _ _ _ T)). split; [exact Hnode|]. right. split; [exact Hnr|]. congruence.
        - destruct (HMn Hqr) as [D U].
          assert (E : memN (par q) passed = true).
          { apply memN_In. destruct (Hcl q Hpar) as [_ [|]]; [contradiction | assumption]. }
          rewrite E in D, U. cbn [orb] in D, U. rewrite D, U. split.
          + apply children_In; [exact Hqn|]. split; [exact Hnode|]. split; [exact Hnr | congruence].
          + intros ii Hii. destruct (nbrs_children q ii Hqn Hii) as [[_ ->]|H]; [left; left; reflexivity|].
            right. apply children_In; [exact Hqn | tauto]. }
      destruct HU as [HU1 HU2].
      assert (E : memN node (dnl st q) || memN node (upl st q) = true) by (apply orb_true_iff; right; apply memN_In; exact HU1).
      rewrite E. cbn [bind fst snd]. rewrite get_nbrs by exact Hqn. cbn [bind].
      rewrite (add_upstream_noop q st (nth q nbrs [])) by assumption. cbn [bind].
      destruct (Nat.eqb_spec node r); [contradiction|]. destruct (Nat.eqb_spec q (par node)); [|congruence]. cbn [orb negb].
      rewrite app_nil_r. exists st. split; [reflexivity|]. split; [exact Hs|]. intros k Hk. destruct (HM k Hk) as [A B]. split.
      + intros Ek. destruct (A Ek) as [A1 A2]. destruct (Nat.eqb_spec node r); [contradiction|]. auto.
      + intros Ek. destruct (B Ek) as [B1 B2].
        assert (EE : (Nat.eqb (par k) node && memN k (l1 ++ [q])) = (Nat.eqb (par k) node && memN k l1)).
        { destruct (Nat.eqb_spec (par k) node) as [Epk|]; [|reflexivity]. cbn [andb].
          unfold memN. rewrite existsb_app. cbn [existsb]. rewrite orb_false_r.
          destruct (Nat.eqb_spec k q) as [->|]; [|rewrite orb_false_r; reflexivity].
          destruct (r_par _ _ _ _ _ T q Hqn Ek) as [_ [Hd _]]. rewrite Epk in Hd. lia. }
        rewrite EE. auto.
    - (* a child *)
      assert (Hpn : memN (par q) passed = false) by (rewrite Eq; apply memN_notIn; exact Hnp).
      destruct (HM q Hqn) as [_ HMn]. destruct (HMn Hqr) as [D U]. rewrite Hpn in D, U.
      assert (E1 : memN q l1 = false) by (apply memN_notIn; exact Hql1). rewrite E1, andb_false_r in D, U. cbn [orb] in D, U.
      rewrite D, U. cbn [memN existsb orb].
      assert (Eqp : memN q passed = false).
      { apply memN_notIn. intros Hc. destruct (Hcl q Hc) as [_ [|Hc']]; [contradiction|]. rewrite Eq in Hc'. contradiction. }
      rewrite Eqp. set (st1 := mkO (o_up st) (upd q ([] ++ [node]) (o_down st))).
      assert (Hs1 : shaped st1) by (destruct Hs; split; simpl; [|rewrite upd_length]; assumption).
      rewrite (get_up st1 node Hs1 Hnode). cbn [bind].
      assert (Hqnode : q <> node) by (intros E; apply (par_irrefl q Hqn Hqr); congruence).
      assert (HUn : upl st1 node = if Nat.eqb node r then l1 else children node).
      { unfold st1, upl. simpl. change (nth node (o_up st) []) with (upl st node). destruct (HM node Hnode) as [A B].
        destruct (Nat.eqb_spec node r) as [Er|Hnr].
        - destruct (A Er) as [_ A2]. destruct (Nat.eqb_spec node r); [exact A2 | contradiction].
        - destruct (B Hnr) as [_ B2]. destruct Hpar as [|Hpar]; [contradiction|].
          assert (E : memN (par node) passed = true) by (apply memN_In; exact Hpar). rewrite E in B2. exact B2. }
      set (st2 := if memN q (upl st1 node) then st1 else mkO (upd node (upl st1 node ++ [q]) (o_up st1)) (o_down st1)).
      cbn [fst snd]. rewrite get_nbrs by exact Hqn. cbn [bind].
      assert (Hs2 : shaped st2) by (unfold st2; destruct (memN q (upl st1 node)); [exact Hs1|]; destruct Hs1; split; simpl in *; [rewrite upd_length|]; assumption).
      assert (HD2 : o_down st2 = upd q [node] (o_down st)) by (unfold st2; destruct (memN q (upl st1 node)); reflexivity).
      assert (HU2 : forall k, upl st2 k = if Nat.eqb node r && Nat.eqb k node then l1 ++ [q] else upl st k).
      { intros k. unfold st2. destruct (Nat.eqb_spec node r) as [Er|Hnr]; cbn [andb].
        - rewrite HUn, E1. unfold upl at 1. simpl. rewrite nth_upd_l by (destruct Hs; lia). rewrite (Nat.eqb_sym node k).
          destruct (Nat.eqb k node); reflexivity.
        - rewrite HUn. assert (E : memN q (children node) = true) by (apply memN_In, children_In; [exact Hnode | tauto]).
          rewrite E. reflexivity. }
      assert (D2 : forall k, dnl st2 k = if Nat.eqb k q then [node] else dnl st k).
      { intros k. unfold dnl. rewrite HD2, nth_upd_l by (destruct Hs; lia). rewrite (Nat.eqb_sym q k). reflexivity. }
      assert (U2q : upl st2 q = []).
      { rewrite HU2. destruct (Nat.eqb_spec q node); [contradiction|]. rewrite andb_false_r. exact U. }
      destruct (add_upstream_fresh q node (nth q nbrs []) st2 Hs2 Hqn) as [st3 [E3 [S3 [D3 [O3 U3]]]]].
      { rewrite D2, Nat.eqb_refl. reflexivity. }
      { apply T. exact Hqn. }
      { intros ii _. rewrite U2q. intros []. }
      rewrite E3. cbn [bind]. exists st3.
      assert (EN : (Nat.eqb node r || negb (Nat.eqb q (par node))) = true).
      { destruct (Nat.eqb_spec node r) as [|Hnr]; [reflexivity|]. cbn [orb]. destruct (Nat.eqb_spec q (par node)) as [Ec|]; [|reflexivity].
        destruct (r_par _ _ _ _ _ T node Hnode Hnr) as [_ [Hd _]]. destruct (r_par _ _ _ _ _ T q Hqn Hqr) as [_ [Hd' _]].
        rewrite <- Ec in Hd. rewrite Eq in Hd'. lia. }
      rewrite EN. split; [reflexivity|]. split; [exact S3|]. intros k Hk.
      assert (D3k : dnl st3 k = if Nat.eqb k q then [node] else dnl st k) by (unfold dnl at 1; rewrite D3; apply D2).
      assert (U3k : upl st3 k = if Nat.eqb k q then children q else if Nat.eqb node r && Nat.eqb k node then l1 ++ [q] else upl st k).
      { destruct (Nat.eqb_spec k q) as [->|Hkq]; [|rewrite O3 by exact Hkq; apply HU2].
        rewrite U3, U2q. cbn [app]. unfold children. destruct (Nat.eqb_spec q r); [contradiction|].
        rewrite Eq. reflexivity. }
      destruct (HM k Hk) as [A B]. split.
      + intros Ek. destruct (A Ek) as [A1 A2]. destruct (Nat.eqb_spec k q) as [|Hkq]; [congruence|]. rewrite D3k, U3k, A1, A2. split; [reflexivity|].
        destruct (Nat.eqb_spec node r) as [Er|]; cbn [andb]; [|reflexivity]. rewrite Ek, Er, Nat.eqb_refl. reflexivity.
      + intros Ek. destruct (B Ek) as [B1 B2]. rewrite D3k, U3k. destruct (Nat.eqb_spec k q) as [->|Hkq].
        * assert (EE : memN (par q) passed || (Nat.eqb (par q) node && memN q (l1 ++ [q])) = true).
          { rewrite Eq, Nat.eqb_refl. cbn [andb]. apply orb_true_iff. right. apply memN_In, in_or_app. right; left; reflexivity. }
          rewrite EE, Eq. auto.
        * assert (EE : memN k (l1 ++ [q]) = memN k l1).
          { unfold memN. rewrite existsb_app. cbn [existsb]. rewrite orb_false_r. destruct (Nat.eqb_spec k q); [contradiction|]. apply orb_false_r. }
          rewrite EE. split; [exact B1|]. destruct (Nat.eqb_spec node r) as [Er|]; cbn [andb]; [|exact B2].
          destruct (Nat.eqb_spec k node); [congruence | exact B2].
  Qed.

  Lemma visit_ok passed node st :
    node < n -> closed passed -> ~ In node passed -> (node = r \/ In (par node) passed) -> vis passed st ->
    exists st', visit nbrs node passed st = Ok (st', children node) /\ vis (passed ++ [node]) st'.
  Proof.
    intros Hnode Hcl Hnp Hpar [Hs HV]. unfold visit. rewrite get_nbrs by exact Hnode. cbn [bind].
    assert (HL : forall l2 l1 st next, nth node nbrs [] = l1 ++ l2 -> mid passed node l1 st ->
      exists st', foldM (visit_one nbrs node passed) l2 (st, next) =
                  Ok (st', next ++ filter (fun q => Nat.eqb node r || negb (Nat.eqb q (par node))) l2) /\ mid passed node (l1 ++ l2) st').
    { induction l2 as [|q l2 IH]; intros l1 st0 next El HM.
      - exists st0. cbn [foldM filter]. rewrite !app_nil_r. auto.
      - destruct (visit_one_ok passed node l1 q l2 st0 next Hnode Hcl Hnp Hpar El HM) as [st1 [E1 M1]].
        cbn [foldM]. rewrite E1. cbn [bind].
        destruct (IH (l1 ++ [q]) st1 (next ++ (if Nat.eqb node r || negb (Nat.eqb q (par node)) then [q] else []))) as [st2 [E2 M2]].
        { rewrite <- app_assoc. exact El. } { exact M1. }
        exists st2. rewrite E2. rewrite <- app_assoc in M2. split; [|exact M2]. f_equal. f_equal. rewrite <- app_assoc. f_equal.
        cbn [filter]. destruct (Nat.eqb node r || negb (Nat.eqb q (par node))); reflexivity. }
    destruct (HL (nth node nbrs []) [] st [] eq_refl) as [st' [E M]].
    { split; [exact Hs|]. intros k Hk. destruct (HV k Hk) as [A B]. split.
      - intros Ek. destruct (A Ek) as [A1 A2]. split; [exact A1|]. destruct (Nat.eqb_spec node r) as [Er|]; [|exact A2].
        rewrite A2. assert (F : memN r passed = false) by (apply memN_notIn; rewrite <- Er; exact Hnp). rewrite F. reflexivity.
      - intros Ek. cbn [memN existsb]. rewrite andb_false_r, orb_false_r. auto. }
    exists st'. split.
    - rewrite E. cbn [app]. f_equal. f_equal. unfold children. destruct (Nat.eqb node r); [|reflexivity]. cbn [orb].
      apply filter_all. reflexivity.
    - destruct M as [S' M]. split; [exact S'|]. intros k Hk. destruct (M k Hk) as [A B]. cbn [app] in *. split.
      + intros Ek. destruct (A Ek) as [A1 A2]. split; [exact A1|]. rewrite A2. unfold memN. rewrite existsb_app. cbn [existsb].
        rewrite orb_false_r. fold (memN r passed). rewrite (Nat.eqb_sym node r). destruct (Nat.eqb_spec r node) as [->|]; cbn [orb].
        * rewrite orb_true_r. reflexivity. * rewrite orb_false_r. reflexivity.
      + intros Ek. destruct (B Ek) as [B1 B2].
        assert (EE : memN (par k) (passed ++ [node]) = memN (par k) passed || (Nat.eqb (par k) node && memN k (nth node nbrs []))).
        { unfold memN at 1. rewrite existsb_app. cbn [existsb]. rewrite orb_false_r. fold (memN (par k) passed). f_equal.
          destruct (Nat.eqb_spec (par k) node) as [Ep|]; [|reflexivity]. cbn [andb]. symmetry. apply memN_In.
          apply (r_adj _ _ _ _ _ T node k Hnode). auto. }
        rewrite EE. auto.
  Qed.

  (** a whole level *)
  Lemma level_ok level : forall passed st next,
    NoDup level -> closed passed -> vis passed st ->
    (forall k, In k level -> k < n /\ ~ In k passed /\ (k = r \/ In (par k) passed)) ->
    exists st', foldM (level_step nbrs) level (st, passed, next) = Ok (st', passed ++ level, next ++ flat_map children level) /\
                vis (passed ++ level) st' /\ closed (passed ++ level).
  Proof.
    induction level as [|k level IH]; intros passed st next Hnd Hcl HV HL.
    - exists st. cbn [foldM flat_map]. rewrite !app_nil_r. auto.
    - apply NoDup_cons_iff in Hnd. destruct Hnd as [Hk Hnd]. destruct (HL k (or_introl eq_refl)) as [H1 [H2 H3]].
      destruct (visit_ok passed k st H1 Hcl H2 H3 HV) as [st1 [E1 V1]]. cbn [foldM].
      assert (ES : level_step nbrs (st, passed, next) k = Ok (st1, passed ++ [k], next ++ children k)) by (unfold level_step; rewrite E1; reflexivity).
      rewrite ES. cbn [bind].
      destruct (IH (passed ++ [k]) st1 (next ++ children k) Hnd) as [st2 [E2 [V2 C2]]]; [|exact V1| |].
      + intros x Hx. apply in_app_or in Hx. destruct Hx as [Hx|[<-|[]]].
        * destruct (Hcl x Hx) as [A [B|B]]; split; auto. right. apply in_or_app. left; exact B.
        * split; [exact H1|]. destruct H3 as [H3|H3]; [left; exact H3 | right; apply in_or_app; left; exact H3].
      + intros x Hx. destruct (HL x (or_intror Hx)) as [A [B C]]. split; [exact A|]. split.
        * intros Hc. apply in_app_or in Hc. destruct Hc as [Hc|[<-|[]]]; contradiction.
        * destruct C as [C|C]; [left; exact C | right; apply in_or_app; left; exact C].
      + exists st2. rewrite E2. rewrite <- !app_assoc in *. cbn [app flat_map] in *. auto.
  Qed.

  (** levels of the tree *)
  Fixpoint level_at (d : nat) : list nat := match d with O => [r] | S d' => flat_map children (level_at d') end.

  Lemma level_In d k : In k (level_at d) <-> k < n /\ dep k = d.
  Proof.
    revert k; induction d as [|d IH]; intros k; cbn [level_at].
    - split.
      + intros [<-|[]]. split; [apply T | apply (r_dep0 _ _ _ _ _ T)].
      + intros [Hk Hd]. destruct (Nat.eq_dec k r) as [->|Hne]; [left; reflexivity|].
        destruct (r_par _ _ _ _ _ T k Hk Hne) as [_ [H _]]. lia.
    - rewrite in_flat_map. split.
      + intros [p [Hp Hc]]. apply IH in Hp. destruct Hp as [Hp Hd]. apply children_In in Hc; [|exact Hp].
        destruct Hc as [Hk [Hne E]]. destruct (r_par _ _ _ _ _ T k Hk Hne) as [_ [H _]]. rewrite E in H. lia.
      + intros [Hk Hd]. destruct (Nat.eq_dec k r) as [->|Hne]; [rewrite (r_dep0 _ _ _ _ _ T) in Hd; lia|].
        destruct (r_par _ _ _ _ _ T k Hk Hne) as [Hp [H _]]. exists (par k). split; [apply IH; lia|].
        apply children_In; [exact Hp | auto].
  Qed.

  Lemma level_NoDup d : NoDup (level_at d).
  Proof.
    induction d as [|d IH]; cbn [level_at]; [repeat constructor; intros []|].
    assert (HS : forall k, In k (level_at d) -> k < n) by (intros k Hk; apply level_In in Hk; tauto).
    revert IH HS. generalize (level_at d). clear d. intros l. induction l as [|k l IH]; intros Hnd HS; [constructor|].
    apply NoDup_cons_iff in Hnd. destruct Hnd as [Hk Hnd]. cbn [flat_map].
    assert (Hkn : k < n) by (apply HS; left; reflexivity).
    apply NoDup_app; [apply children_NoDup; exact Hkn | apply IH; [exact Hnd | intros x Hx; apply HS; right; exact Hx] |].
    intros x Hx Hx'. apply in_flat_map in Hx'. destruct Hx' as [k' [Hk' Hx']].
    apply children_In in Hx; [|exact Hkn]. apply children_In in Hx'; [|apply HS; right; exact Hk'].
    destruct Hx as [_ [_ E]], Hx' as [_ [_ E']]. congruence.
  Qed.

  Definition below (d : nat) : list nat := flat_map level_at (seq 0 d).
  Lemma below_In d k : In k (below d) <-> k < n /\ dep k < d.
  Proof.
    unfold below. rewrite in_flat_map. split.
    - intros [e [He Hk]]. apply in_seq in He. apply level_In in Hk. lia.
    - intros [Hk Hd]. exists (dep k). split; [apply in_seq; lia | apply level_In; auto].
  Qed.
  Lemma below_S d : below (S d) = below d ++ level_at d.
  Proof. unfold below. rewrite seq_S, flat_map_app. cbn [flat_map Nat.add]. rewrite app_nil_r. reflexivity. Qed.

  Lemma loop_ok fuel : forall d st acc,
    vis (below d) st -> closed (below d) -> acc = map level_at (seq 0 (S d)) -> level_at d <> [] -> n <= d + fuel ->
    exists st' m, orient_loop nbrs fuel (level_at d) (below d) st acc = Ok (st', map level_at (seq 0 (S m))) /\
      d <= m /\ level_at m <> [] /\ level_at (S m) = [] /\ vis (below (S m)) st'.
  Proof.
    induction fuel as [|fuel IH]; intros d st acc HV HC Hacc Hne Hf.
    - exfalso. destruct (level_at d) as [|k l] eqn:E; [congruence|].
      assert (Hin : In k (level_at d)) by (rewrite E; left; reflexivity). apply level_In in Hin. destruct Hin as [Hk Hd].
      destruct (Nat.eq_dec k r) as [Hkr|Hkr].
      + rewrite Hkr, (r_dep0 _ _ _ _ _ T) in Hd. pose proof (r_root _ _ _ _ _ T). lia.
      + destruct (r_par _ _ _ _ _ T k Hk Hkr). lia.
    - destruct (level_ok (level_at d) (below d) st [] (level_NoDup d) HC HV) as [st1 [E1 [V1 C1]]].
      { intros k Hk. apply level_In in Hk. destruct Hk as [Hk Hd]. split; [exact Hk|]. split; [rewrite below_In; lia|].
        destruct (Nat.eq_dec k r) as [|Hkr]; [left; assumption|]. right. destruct (r_par _ _ _ _ _ T k Hk Hkr) as [Hp [H _]].
        apply below_In. lia. }
      rewrite <- below_S in E1, V1, C1. change (flat_map children (level_at d)) with (level_at (S d)) in E1. cbn [app] in E1.
      destruct (level_at d) as [|k0 l0] eqn:El; [congruence|]. cbn [orient_loop]. rewrite E1. cbn [bind].
      destruct (level_at (S d)) as [|k1 l1] eqn:El'.
      + exists st1, d. split; [destruct fuel; rewrite Hacc; reflexivity|]. split; [lia|]. rewrite El. split; [discriminate|]. auto.
      + rewrite <- El'. destruct (IH (S d) st1 (acc ++ [level_at (S d)]) V1 C1) as [st' [m [E [Hm H]]]]; [|rewrite El'; discriminate|lia|].
        * rewrite Hacc, (seq_S (S d)), map_app. reflexivity.
        * exists st', m. split; [exact E|]. split; [lia | exact H].
  Qed.

  Lemma orientate_ok : exists st m,
    orientate nbrs r = Ok (st, rev (map level_at (seq 0 (S m)))) /\
    level_at (S m) = [] /\ (forall d, d <= m -> level_at d <> []) /\
    (forall k, k < n -> dep k <= m) /\ length (o_up st) = n /\ length (o_down st) = n /\
    forall k, k < n -> upl st k = children k /\ dnl st k = if Nat.eqb k r then [] else [par k].
  Proof.
    unfold orientate. rewrite (r_len _ _ _ _ _ T).
    destruct (loop_ok (S (S (n * n))) 0 (mkO (repeat [] n) (repeat [] n)) [[r]]) as [st [m [E [_ [Hm [Hm' HV]]]]]].
    - split; [split; apply repeat_length|]. intros k Hk. unfold upl, dnl. simpl. rewrite nth_repeat. split; intros; split; reflexivity.
    - intros k [].
    - reflexivity.
    - discriminate.
    - nia.
    - change (level_at 0) with [r] in E. change (below 0) with (@nil nat) in E. rewrite E. cbn [bind fst snd].
      assert (HE : forall d, level_at d = [] -> level_at (S d) = []) by (intros d H; cbn [level_at]; rewrite H; reflexivity).
      assert (HE2 : forall d e, d <= e -> level_at d = [] -> level_at e = []).
      { intros d e Hde H. induction Hde; [exact H | apply HE; assumption]. }
      assert (HD : forall k, k < n -> dep k <= m).
      { intros k Hk. destruct (Nat.le_gt_cases (dep k) m) as [|G]; [assumption|]. exfalso.
        assert (Hin : In k (level_at (dep k))) by (apply level_In; auto). rewrite (HE2 (S m) (dep k)) in Hin by (try exact Hm'; lia). destruct Hin. }
      destruct HV as [[L1 L2] HV].
      exists st, m. split; [reflexivity|]. split; [exact Hm'|]. split.
      { intros d Hd Hc. apply Hm. apply (HE2 d m Hd Hc). }
      split; [exact HD|]. split; [exact L1|]. split; [exact L2|]. intros k Hk. destruct (HV k Hk) as [A B].
      destruct (Nat.eqb_spec k r) as [Er|Hkr].
      + destruct (A Er) as [A1 A2]. split; [|exact A1]. rewrite A2. assert (F : memN r (below (S m)) = true).
        { apply memN_In, below_In. rewrite (r_dep0 _ _ _ _ _ T). pose proof (r_root _ _ _ _ _ T). lia. }
        rewrite F. unfold children. rewrite Er, Nat.eqb_refl. reflexivity.
      + destruct (B Hkr) as [B1 B2]. destruct (r_par _ _ _ _ _ T k Hk Hkr) as [Hp [Hd _]].
        assert (F : memN (par k) (below (S m)) = true) by (apply memN_In, below_In; specialize (HD k Hk); lia).
        rewrite F in B1, B2. auto.
  Qed.
End Orient.

(** ** Termination on arbitrary neighbour lists *)
Section Terminates.
  Variable nbrs : list (list nat).
  Let n := length nbrs.

  Definition total (l : list (list nat)) : nat := list_sum (map (@length nat) l).
  Definition fine (st : ost) : Prop :=
    length (o_down st) = n /\ Forall (fun d => NoDup d /\ forall x, In x d -> x < n) (o_down st).

  Lemma total_upd (l : list (list nat)) i x : i < length l -> total (upd i x l) + length (nth i l []) = total l + length x.
  Proof.
    revert i; induction l as [|y l IH]; intros i H; [simpl in H; lia|]. destruct i as [|i].
    - change (total (upd 0 x (y :: l))) with (length x + total l). change (total (y :: l)) with (length y + total l). cbn [nth]. lia.
    - change (total (upd (S i) x (y :: l))) with (length y + total (upd i x l)). change (total (y :: l)) with (length y + total l).
      cbn [nth length] in *. specialize (IH i ltac:(lia)). lia.
  Qed.

  Lemma fine_bound st : fine st -> total (o_down st) <= n * n.
  Proof.
    intros [H1 H2]. rewrite <- H1 at 1. clear H1. induction H2 as [|d l [Hd1 Hd2] _ IH]; [apply Nat.le_0_l|].
    change (total (d :: l)) with (length d + total l). cbn [length Nat.mul]. pose proof (NoDup_le_length n d Hd1 Hd2). lia.
  Qed.

  Lemma add_upstream_down q l : forall st st', foldM (add_upstream q) l st = Ok st' -> o_down st' = o_down st.
  Proof.
    induction l as [|ii l IH]; intros st st' H; cbn [foldM] in H; [injection H as <-; reflexivity|].
    unfold add_upstream at 1 in H. destruct (get (o_down st) q); [|discriminate]. cbn [bind] in H.
    destruct (get (o_up st) q); [|discriminate]. cbn [bind] in H. apply IH in H. rewrite H.
    destruct (memN ii a || memN ii a0); reflexivity.
  Qed.

  Lemma get_Ok_nth (l : list (list nat)) i x : get l i = Ok x -> i < length l /\ nth i l [] = x.
  Proof.
    unfold get. destruct (nth_error l i) eqn:E; [|discriminate]. intros H; injection H as <-.
    split; [apply nth_error_Some; congruence | apply nth_error_nth; exact E].
  Qed.

  Lemma Forall_upd {B} (P : B -> Prop) l i x : Forall P l -> P x -> Forall P (upd i x l).
  Proof. intros H Hx. revert i; induction H as [|y l Hy H IH]; intros [|i]; simpl; constructor; auto. Qed.

  Lemma visit_one_total node passed st next q st' next' : node < n -> fine st ->
    visit_one nbrs node passed (st, next) q = Ok (st', next') ->
    fine st' /\ total (o_down st') + length next >= total (o_down st) + length next'.
  Proof.
    intros Hn Hf H. unfold visit_one in H. destruct (get (o_down st) q) as [dq|] eqn:Ed; [|discriminate]. cbn [bind] in H.
    destruct (get (o_up st) q) as [uq|] eqn:Eu; [|discriminate]. cbn [bind] in H.
    apply get_Ok_nth in Ed. destruct Ed as [Hq Ed].
    assert (HA : forall st1 nx, (exists nq, get nbrs q = Ok nq /\ foldM (add_upstream q) nq st1 = Ok st' /\ nx = next') -> o_down st' = o_down st1 /\ nx = next').
    { intros st1 nx [nq [_ [H2 H3]]]. split; [eapply add_upstream_down; eauto | exact H3]. }
    destruct (memN node dq || memN node uq) eqn:Em.
    - cbn [bind fst snd] in H. destruct (get nbrs q) as [nq|] eqn:En; [|discriminate]. cbn [bind] in H.
      destruct (foldM (add_upstream q) nq st) as [st2|] eqn:E2; [|discriminate]. cbn [bind] in H. injection H as <- <-.
      unfold fine. rewrite (add_upstream_down _ _ _ _ E2). split; [exact Hf | lia].
    - apply orb_false_iff in Em. destruct Em as [Em _]. apply memN_notIn in Em.
      assert (Hf1 : forall up, fine (mkO up (upd q (dq ++ [node]) (o_down st)))).
      { intros up. destruct Hf as [F1 F2]. split; simpl; [rewrite upd_length; exact F1|]. apply Forall_upd; [exact F2|].
        rewrite Forall_forall in F2. destruct (F2 dq) as [G1 G2]; [rewrite <- Ed; apply nth_In; exact Hq|]. split.
        - apply NoDup_app; [exact G1 | repeat constructor; intros [] |]. intros x Hx [<-|[]]. contradiction.
        - intros x Hx. apply in_app_or in Hx. destruct Hx as [Hx|[<-|[]]]; auto. }
      assert (Ht : total (upd q (dq ++ [node]) (o_down st)) = S (total (o_down st))).
      { pose proof (total_upd (o_down st) q (dq ++ [node]) Hq) as E. rewrite Ed, app_length in E. simpl in E. lia. }
      destruct (memN q passed).
      + cbn [bind fst snd] in H. destruct (get nbrs q) as [nq|] eqn:En; [|discriminate]. cbn [bind] in H.
        destruct (foldM (add_upstream q) nq _) as [st2|] eqn:E2; [|discriminate]. cbn [bind] in H. injection H as <- <-.
        pose proof (add_upstream_down _ _ _ _ E2) as E. simpl in E. unfold fine. rewrite E. split; [apply (Hf1 []) | lia].
      + cbn [o_up] in H. destruct (get (o_up st) node) as [un|]; [|discriminate]. cbn [bind fst snd] in H.
        destruct (get nbrs q) as [nq|] eqn:En; [|discriminate]. cbn [bind] in H.
        destruct (foldM (add_upstream q) nq _) as [st2|] eqn:E2; [|discriminate]. cbn [bind] in H. injection H as <- <-.
        pose proof (add_upstream_down _ _ _ _ E2) as E. assert (E' : o_down st2 = upd q (dq ++ [node]) (o_down st)) by (destruct (memN q un); exact E).
        unfold fine. rewrite E'. split; [apply (Hf1 [])|]. rewrite app_length. simpl. lia.
  Qed.

  Lemma visit_total node passed st st' next : fine st -> visit nbrs node passed st = Ok (st', next) ->
    fine st' /\ total (o_down st') >= total (o_down st) + length next.
  Proof.
    intros Hf H. unfold visit in H. destruct (get nbrs node) as [nn|] eqn:En; [|discriminate]. cbn [bind] in H.
    apply get_Ok_nth in En. destruct En as [Hn _].
    assert (HL : forall l st nx, fine st -> foldM (visit_one nbrs node passed) l (st, nx) = Ok (st', next) ->
      fine st' /\ total (o_down st') + length nx >= total (o_down st) + length next).
    { clear H Hf. induction l as [|q l IH]; intros s nx Hf H; cbn [foldM] in H; [injection H as -> ->; split; [exact Hf | lia]|].
      destruct (visit_one nbrs node passed (s, nx) q) as [[s1 nx1]|] eqn:E1; [|discriminate]. cbn [bind] in H.
      destruct (visit_one_total _ _ _ _ _ _ _ Hn Hf E1) as [F1 T1]. destruct (IH s1 nx1 F1 H) as [F2 T2]. split; [exact F2 | lia]. }
    destruct (HL nn st [] Hf H) as [F T]. simpl in T. split; [exact F | lia].
  Qed.

  Lemma level_total level : forall st passed nx st' passed' next, fine st ->
    foldM (level_step nbrs) level (st, passed, nx) = Ok (st', passed', next) ->
    fine st' /\ total (o_down st') + length nx >= total (o_down st) + length next.
  Proof.
    induction level as [|k level IH]; intros st passed nx st' passed' next Hf H; cbn [foldM] in H.
    - injection H as -> -> ->. split; [exact Hf | lia].
    - unfold level_step at 1 in H. destruct (visit nbrs k passed st) as [[s1 n1]|] eqn:E1; [|discriminate]. cbn [bind fst snd] in H.
      destruct (visit_total _ _ _ _ _ Hf E1) as [F1 T1]. destruct (IH _ _ _ _ _ _ F1 H) as [F2 T2]. rewrite app_length in T2.
      split; [exact F2 | lia].
  Qed.

  (** errors other than running out of fuel *)
  Lemma foldM_nofuel {B C} (f : C -> B -> res C) l : (forall c b, f c b <> Err OutOfFuel) -> forall c, foldM f l c <> Err OutOfFuel.
  Proof.
    intros Hf. induction l as [|b l IH]; intros c; cbn [foldM]; [discriminate|].
    destruct (f c b) as [c'|e] eqn:E; cbn [bind]; [apply IH | rewrite <- E; apply Hf].
  Qed.
  Lemma get_nofuel {B} (l : list B) i : get l i <> Err OutOfFuel.
  Proof. unfold get. destruct (nth_error l i); discriminate. Qed.
  Lemma bind_nofuel {B C} (m : res B) (f : B -> res C) : m <> Err OutOfFuel -> (forall b, f b <> Err OutOfFuel) -> bind m f <> Err OutOfFuel.
  Proof. intros Hm Hf. destruct m; cbn [bind]; [apply Hf | congruence]. Qed.

  Lemma level_nofuel level acc : foldM (level_step nbrs) level acc <> Err OutOfFuel.
  Proof.
    apply foldM_nofuel. intros [[st passed] nx] k. apply bind_nofuel; [|intros; discriminate].
    unfold visit. apply bind_nofuel; [apply get_nofuel|]. intros nn. apply foldM_nofuel. intros [s nx'] q. unfold visit_one.
    apply bind_nofuel; [apply get_nofuel|]. intros dq. apply bind_nofuel; [apply get_nofuel|]. intros uq. apply bind_nofuel.
    - destruct (memN k dq || memN k uq); [discriminate|]. destruct (memN q passed); [discriminate|].
      apply bind_nofuel; [apply get_nofuel | intros; discriminate].
    - intros acc1. apply bind_nofuel; [apply get_nofuel|]. intros nq. apply bind_nofuel; [|intros; discriminate].
      apply foldM_nofuel. intros s2 ii. unfold add_upstream. apply bind_nofuel; [apply get_nofuel|]. intros.
      apply bind_nofuel; [apply get_nofuel | intros; discriminate].
  Qed.

  Lemma loop_terminates fuel : forall level passed st acc, fine st -> n * n < total (o_down st) + fuel ->
    orient_loop nbrs fuel level passed st acc <> Err OutOfFuel.
  Proof.
    induction fuel as [|fuel IH]; intros level passed st acc Hf Hb.
    - pose proof (fine_bound st Hf). lia.
    - destruct level as [|k level]; [discriminate|]. cbn [orient_loop].
      destruct (foldM (level_step nbrs) (k :: level) (st, passed, [])) as [[[st' passed'] next]|e] eqn:E; cbn [bind].
      + destruct (level_total _ _ _ _ _ _ _ Hf E) as [F T]. simpl in T. destruct next as [|q next].
        * destruct fuel; discriminate.
        * apply IH; [exact F|]. simpl in T. lia.
      + intros Hc. apply (level_nofuel (k :: level) (st, passed, [])). rewrite E. congruence.
  Qed.

  Lemma orientate_terminates r : orientate nbrs r <> Err OutOfFuel.
  Proof.
    unfold orientate. fold n. apply bind_nofuel; [|intros; discriminate]. apply loop_terminates; [|unfold total; lia].
    split; simpl; [apply repeat_length|]. rewrite Forall_forall. intros d Hd. apply repeat_spec in Hd. subst d.
    split; [constructor | intros x []].
  Qed.
End Terminates.
