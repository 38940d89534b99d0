(** Proofs about batch DANSE. *)
From Verif Require Import Base BaseFacts Buffers Batch.
Open Scope nat_scope.

Section Facts.
  Variables M W E : Type.
  Variable covmats : list E -> nat -> M.
  Variable solve : nat -> M -> W.
  Variable ext_rule : nat -> E -> W -> E.
  Notation iter := (batch_iter covmats solve ext_rule).
  Notation bnode := (bnode W E).

  Lemma put_inv {A} i (a : A) l l' : put i a l = Ok l' -> i < length l /\ l' = upd i a l.
  Proof. unfold put. destruct (Nat.ltb_spec i (length l)); [|discriminate]. intros H'. injection H' as <-. auto. Qed.

  Lemma ok_inj {A} (a b : A) : Ok a = Ok b -> b = a.
  Proof. congruence. Qed.

  (** what happens to one node *)
  Lemma node_inv k up m (b b' : bnode) : batch_node solve ext_rule k up m b = Ok b' ->
    b_i b' = S (b_i b) /\ length (b_w b') = length (b_w b) /\ length (b_ext b') = length (b_ext b) /\
    (forall j, j <= b_i b -> nth_error (b_w b') j = nth_error (b_w b) j /\ nth_error (b_ext b') j = nth_error (b_ext b) j) /\
    (up = true -> nth_error (b_w b') (S (b_i b)) = Some (solve k m)) /\
    (up = false -> nth_error (b_w b') (S (b_i b)) = nth_error (b_w b) (b_i b)) /\
    (exists e w, nth_error (b_ext b) (b_i b) = Some e /\ nth_error (b_w b') (S (b_i b)) = Some w /\
       nth_error (b_ext b') (S (b_i b)) = Some (ext_rule k e w)).
  Proof.
    destruct b as [i ws es]. unfold batch_node. cbn [b_i b_w b_ext].
    destruct up.
    - destruct (put (S i) (solve k m) ws) as [ws'|] eqn:E1; [|discriminate]. cbn [bind b_i b_w b_ext].
      apply put_inv in E1. destruct E1 as [L1 ->]. unfold get at 1. rewrite upd_nth_same by exact L1. cbn [bind].
      unfold get. destruct (nth_error es i) as [e|] eqn:E2; [|discriminate]. cbn [bind].
      destruct (put (S i) _ es) as [es'|] eqn:E3; [|discriminate]. cbn [bind]. apply put_inv in E3. destruct E3 as [L3 ->].
      intros H. apply ok_inj in H. subst b'. cbn [b_i b_w b_ext]. rewrite !upd_length. do 3 (split; [reflexivity|]).
      split; [intros j Hj; rewrite !upd_nth_other by lia; auto|]. split; [intros _; apply upd_nth_same; exact L1|].
      split; [discriminate|]. exists e, (solve k m). rewrite !upd_nth_same by assumption. auto.
    - unfold get at 1. destruct (nth_error ws i) as [w|] eqn:E1; [|discriminate]. cbn [bind].
      destruct (put (S i) w ws) as [ws'|] eqn:E2; [|discriminate]. cbn [bind]. apply put_inv in E2. destruct E2 as [L2 ->].
      unfold get at 1. destruct (nth_error es i) as [e|] eqn:E3; [|discriminate]. cbn [bind].
      destruct (put (S i) e es) as [es'|] eqn:E4; [|discriminate]. cbn [bind b_i b_w b_ext]. apply put_inv in E4. destruct E4 as [L4 ->].
      unfold get. rewrite upd_nth_same by exact L2. cbn [bind]. rewrite upd_nth_other by lia. rewrite E3. cbn [bind].
      destruct (put (S i) _ (upd (S i) e es)) as [es'|] eqn:E5; [|discriminate]. cbn [bind]. apply put_inv in E5. destruct E5 as [L5 ->].
      rewrite upd_length in L5.
      intros H. apply ok_inj in H. subst b'. cbn [b_i b_w b_ext]. rewrite !upd_length. do 3 (split; [reflexivity|]).
      split; [intros j Hj; rewrite !upd_nth_other by lia; auto|]. split; [discriminate|].
      split; [intros _; rewrite upd_nth_same by exact L2; auto|]. exists e, w. rewrite !upd_nth_same by (rewrite ?upd_length; assumption). auto.
  Qed.

  Lemma nth_combine_seq {A} (l : list A) k a : nth_error l k = Some a -> nth_error (combine (seq 0 (length l)) l) k = Some (k, a).
  Proof.
    assert (G : forall (l : list A) s k a, nth_error l k = Some a -> nth_error (combine (seq s (length l)) l) k = Some (s + k, a)).
    { induction l0 as [|x l0 IH]; intros s [|k'] a'; cbn; try discriminate.
      - intros H. injection H as <-. f_equal. f_equal. lia.
      - intros H. rewrite (IH (S s) k' a' H). f_equal. f_equal. lia. }
    apply (G l 0).
  Qed.
  Lemma combine_seq_length {A} (l : list A) : length (combine (seq 0 (length l)) l) = length l.
  Proof. rewrite combine_length, seq_length. lia. Qed.

  Lemma iter_node up bs bs' : iter up bs = Ok bs' ->
    length bs' = length bs /\ exists es, exts bs = Ok es /\
    forall k b, nth_error bs k = Some b -> exists b', nth_error bs' k = Some b' /\ batch_node solve ext_rule k (up k) (covmats es k) b = Ok b'.
  Proof.
    unfold batch_iter. destruct (exts bs) as [es|]; [|discriminate]. cbn [bind]. intros H.
    split; [rewrite (mapM_length _ _ _ H); apply combine_seq_length|]. exists es. split; [reflexivity|].
    intros k b Hk. apply nth_combine_seq in Hk. destruct (mapM_nth _ _ _ _ _ H Hk) as [b' [H1 H2]]. exists b'. auto.
  Qed.

  Definition at_iter (i : nat) (bs : list bnode) : Prop := forall b, In b bs -> b_i b = i.
  (** external filters of all nodes at iteration [j] *)
  Definition ext_at (j : nat) (bs : list bnode) : res (list E) := mapM (fun b => get (b_ext b) j) bs.

  Lemma iter_at up bs bs' i : iter up bs = Ok bs' -> at_iter i bs -> at_iter (S i) bs'.
  Proof.
    intros H Hi b' Hb. destruct (iter_node _ _ _ H) as [Hl [es [_ Hn]]]. apply In_nth_error in Hb. destruct Hb as [k Hk].
    assert (Hlt : k < length bs) by (rewrite <- Hl; apply nth_error_Some; congruence).
    destruct (nth_error bs k) as [b|] eqn:Eb; [|apply nth_error_None in Eb; lia].
    destruct (Hn k b Eb) as [b1 [H1 H2]]. assert (b1 = b') by congruence. subst b1. apply node_inv in H2. destruct H2 as [H2 _]. rewrite H2.
    f_equal. apply Hi. eapply nth_error_In; eauto.
  Qed.

  (** one iteration, for the rest of a run that preserves older slots *)
  Definition keeps (i : nat) (bs bs' : list bnode) : Prop :=
    length bs' = length bs /\ forall k b, nth_error bs k = Some b -> exists b', nth_error bs' k = Some b' /\
      length (b_w b') = length (b_w b) /\ length (b_ext b') = length (b_ext b) /\
      forall j, j <= i -> nth_error (b_w b') j = nth_error (b_w b) j /\ nth_error (b_ext b') j = nth_error (b_ext b) j.
  Lemma keeps_refl i bs : keeps i bs bs.
  Proof. split; [reflexivity|]. intros k b H. exists b. auto. Qed.
  Lemma keeps_trans i bs1 bs2 bs3 : keeps i bs1 bs2 -> keeps (S i) bs2 bs3 -> keeps i bs1 bs3.
  Proof.
    intros [L1 H1] [L2 H2]. split; [congruence|]. intros k b Hb. destruct (H1 k b Hb) as (b2 & Hb2 & A1 & A2 & A3).
    destruct (H2 k b2 Hb2) as (b3 & Hb3 & B1 & B2 & B3). exists b3. split; [exact Hb3|]. split; [congruence|]. split; [congruence|].
    intros j Hj. destruct (A3 j Hj), (B3 j ltac:(lia)). split; congruence.
  Qed.
  Lemma iter_keeps up bs bs' i : iter up bs = Ok bs' -> at_iter i bs -> keeps i bs bs'.
  Proof.
    intros H Hi. destruct (iter_node _ _ _ H) as [Hl [es [_ Hn]]]. split; [exact Hl|]. intros k b Hb.
    destruct (Hn k b Hb) as [b' [H1 H2]]. exists b'. split; [exact H1|]. apply node_inv in H2. destruct H2 as (_ & A & B & C & _).
    split; [exact A|]. split; [exact B|]. rewrite <- (Hi b) by (eapply nth_error_In; eauto). exact C.
  Qed.
  Lemma ext_at_keeps i j bs bs' : keeps i bs bs' -> j <= i -> ext_at j bs' = ext_at j bs.
  Proof.
    intros [Hl H] Hj. unfold ext_at. revert bs' Hl H. induction bs as [|b bs IH]; intros [|b' bs'] Hl H; try discriminate; [reflexivity|].
    cbn [mapM]. destruct (H 0 b eq_refl) as (b1 & E1 & _ & _ & E3). injection E1 as <-. destruct (E3 j Hj) as [_ E4].
    assert (Hg : get (b_ext b') j = get (b_ext b) j) by (unfold get; rewrite E4; reflexivity). rewrite Hg, (IH bs').
    - reflexivity. - injection Hl as Hl. exact Hl.
    - intros k b2 Hk. apply (H (S k) b2 Hk).
  Qed.

  (** what the final slots say about iteration [j] *)
  Definition iteration_ok (up : nat -> bool) (j : nat) (bs' : list bnode) : Prop :=
    exists es, ext_at j bs' = Ok es /\
    forall k b', nth_error bs' k = Some b' -> exists w w' e,
      nth_error (b_w b') j = Some w /\ nth_error (b_w b') (S j) = Some w' /\ nth_error (b_ext b') j = Some e /\
      w' = (if up k then solve k (covmats es k) else w) /\
      nth_error (b_ext b') (S j) = Some (ext_rule k e w').

  Lemma iteration_from_iter up i bs bs1 bs' : iter up bs = Ok bs1 -> at_iter i bs -> keeps (S i) bs1 bs' -> 
    (forall b, In b bs -> i < length (b_w b)) -> iteration_ok up i bs'.
  Proof.
    intros H Hi Hk Hlen. destruct (iter_node _ _ _ H) as [Hl [es [Hes Hn]]]. exists es. split.
    - rewrite (ext_at_keeps i i bs bs'); [|eapply keeps_trans; [eapply iter_keeps; eauto | exact Hk] | lia].
      rewrite <- Hes. unfold ext_at, exts. clear - Hi. induction bs as [|b bs IH]; [reflexivity|]. cbn [mapM].
      rewrite (Hi b (or_introl eq_refl)). rewrite IH; [reflexivity|]. intros b' Hb'. apply Hi. right. exact Hb'.
    - intros k b' Hb'. destruct Hk as [Hl2 Hk].
      assert (Hlt : k < length bs) by (rewrite <- Hl, <- Hl2; apply nth_error_Some; congruence).
      destruct (nth_error bs k) as [b|] eqn:Eb; [|apply nth_error_None in Eb; lia].
      destruct (Hn k b Eb) as [b1 [H1 H2]]. destruct (Hk k b1 H1) as (b2 & E2 & _ & _ & E3). assert (b2 = b') by congruence. subst b2.
      assert (Hbi : b_i b = i) by (apply Hi; eapply nth_error_In; eauto).
      apply node_inv in H2. rewrite Hbi in H2. destruct H2 as (_ & _ & _ & C & D1 & D2 & e & w' & F1 & F2 & F3).
      destruct (E3 i ltac:(lia)) as [G1 G2]. destruct (E3 (S i) ltac:(lia)) as [G3 G4]. destruct (C i ltac:(lia)) as [C1 C2].
      rewrite G1, G2, G3, G4, C1, C2.
      destruct (nth_error (b_w b) i) as [w|] eqn:Ew;
        [|exfalso; apply nth_error_None in Ew; specialize (Hlen b (nth_error_In _ _ Eb)); lia].
      exists w, w', e. split; [reflexivity|]. split; [exact F2|]. split; [exact F1|]. split; [|exact F3].
      destruct (up k); [specialize (D1 eq_refl) | specialize (D2 eq_refl)]; congruence.
  Qed.

  Lemma iter_len up bs bs' i : iter up bs = Ok bs' -> at_iter i bs -> forall N, (forall b, In b bs -> N < length (b_w b)) -> forall b, In b bs' -> N < length (b_w b).
  Proof.
    intros H Hi N HN b' Hb'. destruct (iter_keeps _ _ _ _ H Hi) as [Hl Hk]. apply In_nth_error in Hb'. destruct Hb' as [k Hb'].
    assert (Hlt : k < length bs) by (rewrite <- Hl; apply nth_error_Some; congruence).
    destruct (nth_error bs k) as [b|] eqn:Eb; [|apply nth_error_None in Eb; lia].
    destruct (Hk k b Eb) as (b2 & E2 & E3 & _). assert (b2 = b') by congruence. subst b2. rewrite E3. apply HN. eapply nth_error_In; eauto.
  Qed.

  Lemma seq_run iters : forall i bs bs', batch_seq covmats solve ext_rule iters (i mod length bs) bs = Ok bs' -> at_iter i bs ->
    (forall b, In b bs -> i + iters < length (b_w b)) ->
    keeps i bs bs' /\ at_iter (i + iters) bs' /\
    forall j, i <= j < i + iters -> iteration_ok (fun k => Nat.eqb (j mod length bs) k) j bs'.
  Proof.
    induction iters as [|it IH]; intros i bs bs' H Hi Hlen.
    - apply ok_inj in H. subst bs'. split; [apply keeps_refl|]. split; [rewrite Nat.add_0_r; exact Hi|]. intros j Hj. lia.
    - cbn [batch_seq] in H. destruct (iter _ bs) as [bs1|] eqn:Eit; [|discriminate]. cbn [bind] in H.
      assert (Hi1 := iter_at _ _ _ _ Eit Hi). assert (Hk1 := iter_keeps _ _ _ _ Eit Hi). assert (Hl := proj1 Hk1).
      destruct bs as [|b0 bs0] eqn:Ebs.
      { destruct bs1; [|discriminate]. assert (H' : batch_seq covmats solve ext_rule it (S i mod length (@nil bnode)) [] = Ok bs').
        { cbn [length] in *. replace ((i mod 0 + 1) mod 0) with (S i mod 0) in H by (cbn; lia). exact H. }
        destruct (IH (S i) [] bs' H') as (A & B & C); [intros ? []|intros ? []|]. destruct A as [A _]. destruct bs'; [|discriminate].
        split; [split; [reflexivity|]; intros [|k] ? HH; discriminate|]. split; [intros ? []|].
        intros j Hj. exists []. split; [reflexivity|]. intros [|k] ? HH; discriminate. }
      rewrite <- Ebs in *. assert (Hn : length bs <> 0) by (rewrite Ebs; discriminate).
      assert (Hu : (i mod length bs + 1) mod length bs = S i mod length bs1).
      { rewrite Hl. replace (S i) with (i + 1) by lia. rewrite Nat.add_mod_idemp_l by exact Hn. reflexivity. }
      rewrite Hu in H. assert (Hlen1 := iter_len _ _ _ _ Eit Hi _ Hlen).
      destruct (IH (S i) bs1 bs' H Hi1) as (A & B & C); [intros b Hb; specialize (Hlen1 b Hb); lia|].
      split; [eapply keeps_trans; eauto|]. split; [replace (i + S it) with (S i + it) by lia; exact B|].
      intros j Hj. destruct (Nat.eq_dec j i) as [->|Hne].
      + eapply iteration_from_iter; eauto. intros b Hb. specialize (Hlen b Hb). lia.
      + rewrite <- Hl. apply C. lia.
  Qed.

  Lemma sim_run iters : forall i bs bs', batch_sim covmats solve ext_rule iters bs = Ok bs' -> at_iter i bs ->
    (forall b, In b bs -> i + iters < length (b_w b)) ->
    keeps i bs bs' /\ at_iter (i + iters) bs' /\
    forall j, i <= j < i + iters -> iteration_ok (fun _ => true) j bs'.
  Proof.
    induction iters as [|it IH]; intros i bs bs' H Hi Hlen.
    - apply ok_inj in H. subst bs'. split; [apply keeps_refl|]. split; [rewrite Nat.add_0_r; exact Hi|]. intros j Hj. lia.
    - cbn [batch_sim] in H. destruct (iter _ bs) as [bs1|] eqn:Eit; [|discriminate]. cbn [bind] in H.
      assert (Hi1 := iter_at _ _ _ _ Eit Hi). assert (Hk1 := iter_keeps _ _ _ _ Eit Hi).
      assert (Hlen1 := iter_len _ _ _ _ Eit Hi _ Hlen).
      destruct (IH (S i) bs1 bs' H Hi1) as (A & B & C); [intros b Hb; specialize (Hlen1 b Hb); lia|].
      split; [eapply keeps_trans; eauto|]. split; [replace (i + S it) with (S i + it) by lia; exact B|].
      intros j Hj. destruct (Nat.eq_dec j i) as [->|Hne].
      + eapply iteration_from_iter; eauto. intros b Hb. specialize (Hlen b Hb). lia.
      + apply C. lia.
  Qed.

  (** runs succeed when there are enough slots *)
  Lemma node_ok k up m (b : bnode) : S (b_i b) < length (b_w b) -> S (b_i b) < length (b_ext b) -> exists b', batch_node solve ext_rule k up m b = Ok b'.
  Proof.
    destruct b as [i ws es]. cbn [b_i b_w b_ext]. intros H1 H2. unfold batch_node. cbn [b_i b_w b_ext]. unfold get, put.
    destruct (nth_error es i) as [e|] eqn:E2; [|apply nth_error_None in E2; lia].
    destruct (nth_error ws i) as [w|] eqn:E1; [|apply nth_error_None in E1; lia].
    destruct (Nat.ltb_spec (S i) (length ws)); [|lia]. destruct (Nat.ltb_spec (S i) (length es)); [|lia].
    destruct up; cbn [bind b_w b_ext b_i].
    - rewrite upd_nth_same by lia. cbn [bind]. rewrite E2. cbn [bind]. destruct (Nat.ltb_spec (S i) (length es)); [|lia]. cbn [bind]. eauto.
    - rewrite upd_nth_same by lia. cbn [bind]. rewrite upd_nth_other by lia. rewrite E2. cbn [bind]. rewrite upd_length.
      destruct (Nat.ltb_spec (S i) (length es)); [|lia]. cbn [bind]. eauto.
  Qed.
  Lemma mapM_succeeds {A B} (f : A -> res B) l : (forall a, In a l -> exists b, f a = Ok b) -> exists bs, mapM f l = Ok bs.
  Proof.
    induction l as [|a l IH]; intros H; [exists []; reflexivity|]. destruct (H a (or_introl eq_refl)) as [b Hb].
    destruct IH as [bs Hbs]; [intros; apply H; right; assumption|]. exists (b :: bs). cbn. rewrite Hb. cbn. rewrite Hbs. reflexivity.
  Qed.
  Lemma iter_succeeds up i bs : at_iter i bs -> (forall b, In b bs -> S i < length (b_w b) /\ S i < length (b_ext b)) -> exists bs', iter up bs = Ok bs'.
  Proof.
    intros Hi Hl. unfold batch_iter. destruct (mapM_succeeds (fun b => get (b_ext b) (b_i b)) bs) as [es Hes].
    - intros b Hb. rewrite (Hi b Hb). destruct (Hl b Hb) as [_ H]. unfold get.
      destruct (nth_error (b_ext b) i) eqn:E1; [eauto | apply nth_error_None in E1; lia].
    - unfold exts. rewrite Hes. cbn [bind]. apply mapM_succeeds. intros [k b] Hb. cbn [fst snd]. apply in_combine_r in Hb.
      destruct (Hl b Hb). apply node_ok; rewrite (Hi b Hb); assumption.
  Qed.
  Lemma seq_succeeds iters : forall i u bs, at_iter i bs ->
    (forall b, In b bs -> i + iters < length (b_w b) /\ i + iters < length (b_ext b)) -> exists bs', batch_seq covmats solve ext_rule iters u bs = Ok bs'.
  Proof.
    induction iters as [|it IH]; intros i u bs Hi Hl; [eexists; reflexivity|]. cbn [batch_seq].
    destruct (iter_succeeds (Nat.eqb u) i bs Hi) as [bs1 Eit]; [intros b Hb; destruct (Hl b Hb); lia|]. rewrite Eit. cbn [bind].
    apply (IH (S i)); [eapply iter_at; eauto|]. intros b' Hb'. destruct (iter_keeps _ _ _ _ Eit Hi) as [L K]. apply In_nth_error in Hb'. destruct Hb' as [k Hb'].
    assert (Hlt : k < length bs) by (rewrite <- L; apply nth_error_Some; congruence).
    destruct (nth_error bs k) as [b|] eqn:Eb; [|apply nth_error_None in Eb; lia].
    destruct (K k b Eb) as (b2 & E2 & E3 & E4 & _). assert (b2 = b') by congruence. subst b2. rewrite E3, E4.
    destruct (Hl b (nth_error_In _ _ Eb)). lia.
  Qed.
End Facts.
