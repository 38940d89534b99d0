From Verif Require Import Base BaseFacts Sched Buffers Chunk Level Cx Wola Dist SroComp Online OnlineSpec OnlineFacts3 OutFacts2 Filt FiltSpec FiltFacts Scm Ext Full FullSpec FullFacts.
From Coq Require Import Reals.
Local Open Scope nat_scope.

Section Run.
  Variables (c : acfg) (y : list (list (list R))).

  Definition index (a : astate) (k : nat) : option nat := nth_error (b_i (os_b (a_s a))) k.
  Definition aligned (a : astate) : Prop := forall k i, index a k = Some i ->
    (forall n, nth_error (a_f a) k = Some n -> fn_i n = i) /\ (forall x, nth_error (a_x a) k = Some x -> x_i x = i).

  (** [a'] has the filters of [a] up to the current iterations of [a]. *)
  Definition extends (a a' : astate) : Prop := forall k i, index a k = Some i ->
    (exists i', index a' k = Some i' /\ i <= i') /\
    forall j, j <= i -> int_at (a_f a) k j = int_at (a_f a') k j /\ loc_at (a_f a) k j = loc_at (a_f a') k j /\ ext_at (a_x a) k j = ext_at (a_x a') k j.

  Definition agrees (a a' : astate) : Prop := forall k i j, index a k = Some i -> j <= i ->
    int_at (a_f a) k j = int_at (a_f a') k j /\ loc_at (a_f a) k j = loc_at (a_f a') k j /\ ext_at (a_x a) k j = ext_at (a_x a') k j.
  Lemma extends_agrees a b d : extends a b -> agrees b d -> agrees a d.
  Proof.
    intros H1 H2 k i j H Hj. destruct (H1 k i H) as [(i' & E & L) F]. destruct (F j Hj) as (A & B & C). destruct (H2 k i' j E ltac:(lia)) as (A' & B' & C').
    repeat split; congruence.
  Qed.
  Lemma extends_refl a : extends a a.
  Proof. intros k i H. split; [exists i; auto | auto]. Qed.
  Lemma extends_trans a b d : extends a b -> extends b d -> extends a d.
  Proof.
    intros H1 H2 k i H. destruct (H1 k i H) as [(i' & E & L) F]. destruct (H2 k i' E) as [(i'' & E' & L') F'].
    split; [exists i''; split; [exact E'|lia]|]. intros j Hj. destruct (F j Hj) as (A & B & C). destruct (F' j ltac:(lia)) as (A' & B' & C').
    repeat split; congruence.
  Qed.

  (** One update, taken apart. *)
  Lemma full_update_inv t k byp a a' : full_update c y t k byp a = Ok a' ->
    exists n n' x x' u w, nth_error (a_f a) k = Some n /\ nth_error (a_x a) k = Some x /\
      observe c y t k byp (a_s a) = Ok u /\
      filt_step outer (avg (ac_beta c k)) (ac_valid c) (ac_solve c) (ac_p c) n u = Ok n' /\
      nth_error (e_w (fn_danse n')) (S (fn_i n)) = Some w /\
      ext_update (ac_x c k) w (Some (IZR t)) x = Ok x' /\
      a_f a' = upd k n' (a_f a) /\ a_x a' = upd k x' (a_x a) /\
      online_update (with_filters c y (a_f a') (a_x a')) y t k (a_s a) = Ok (a_s a').
  Proof.
    unfold full_update. intros H. unfold get in H.
    destruct (nth_error (a_f a) k) as [n|] eqn:En; [|discriminate]. cbn [bind] in H.
    destruct (nth_error (a_x a) k) as [x|] eqn:Ex; [|discriminate]. cbn [bind] in H.
    destruct (observe _ _ _ _ _ _) as [u|] eqn:Eu; [|discriminate]. cbn [bind] in H.
    destruct (filt_step _ _ _ _ _ _ _) as [n'|] eqn:En'; [|discriminate]. cbn [bind] in H.
    destruct (nth_error (e_w (fn_danse n')) (S (fn_i n))) as [w|] eqn:Ew; [|discriminate]. cbn [bind] in H.
    destruct (ext_update _ _ _ _) as [x'|] eqn:Ex'; [|discriminate]. cbn [bind] in H.
    destruct (online_update _ _ _ _ _) as [s|] eqn:Es; [|discriminate]. cbn [bind] in H. injection H as <-.
    exists n, n', x, x', u, w. cbn [a_f a_x a_s]. repeat (split; [assumption || reflexivity|]). exact Es.
  Qed.
  Lemma full_broadcast_inv t k a a' : full_broadcast c y t k a = Ok a' ->
    a_f a' = a_f a /\ a_x a' = a_x a /\ online_broadcast (with_filters c y (a_f a) (a_x a)) y t k (a_s a) = Ok (a_s a').
  Proof.
    unfold full_broadcast. intros H. destruct (online_broadcast _ _ _ _ _) eqn:E; [|discriminate]. cbn [bind] in H. injection H as <-. cbn. auto.
  Qed.

  Lemma nth_error_lt {A} (l : list A) k v : nth_error l k = Some v -> k < length l.
  Proof. intros H. apply nth_error_Some. congruence. Qed.

  Lemma update_extends t k byp a a' : full_update c y t k byp a = Ok a' -> aligned a -> aligned a' /\ extends a a'.
  Proof.
    intros H Ha. destruct (full_update_inv _ _ _ _ _ H) as (n & n' & x & x' & u & w & En & Ex & _ & Es & _ & Ee & Ef & Ea & Eo).
    destruct (update_index _ _ _ _ _ _ Eo) as (i & Ei & Ei').
    destruct (Ha k i Ei) as [A1 A2]. specialize (A1 n En). specialize (A2 x Ex).
    destruct (step_keeps n n' u no_coefs Es) as (K1 & K2 & K3). destruct (ext_keeps _ _ _ _ _ Ee) as (X1 & X2 & _).
    assert (Lf := nth_error_lt _ _ _ En). assert (Lx := nth_error_lt _ _ _ Ex). assert (Li := nth_error_lt _ _ _ Ei).
    assert (I : forall k', k' <> k -> index a' k' = index a k').
    { intros k' Hk. unfold index. rewrite Ei'. apply upd_nth_other. congruence. }
    assert (I' : index a' k = Some (S i)) by (unfold index; rewrite Ei'; apply upd_nth_same; exact Li).
    split.
    - intros k' i' Hi'. destruct (Nat.eq_dec k' k) as [->|Hk].
      + rewrite I' in Hi'. injection Hi' as <-. rewrite Ef, Ea, !upd_nth_same by assumption. split; intros ? [= <-]; lia.
      + rewrite (I _ Hk) in Hi'. rewrite Ef, Ea, !upd_nth_other by congruence. exact (Ha k' i' Hi').
    - intros k' i' Hi'. destruct (Nat.eq_dec k' k) as [->|Hk].
      + unfold index in Hi'. rewrite Ei in Hi'. injection Hi' as <-. split; [exists (S i); split; [exact I'|lia]|].
        intros j Hj. unfold int_at, loc_at, ext_at. rewrite Ef, Ea, !upd_nth_same, En, Ex by assumption.
        split; [symmetry; apply K2; lia|]. split; [|symmetry; apply X2; lia].
        destruct (fn_local n), (fn_local n'); try contradiction; [symmetry; apply K3; lia | reflexivity].
      + split; [exists i'; split; [rewrite (I _ Hk); exact Hi'|lia]|].
        intros j Hj. unfold int_at, loc_at, ext_at. rewrite Ef, Ea, !upd_nth_other by congruence. auto.
  Qed.
  Lemma broadcast_extends t k a a' : full_broadcast c y t k a = Ok a' -> aligned a -> aligned a' /\ extends a a'.
  Proof.
    intros H Ha. destruct (full_broadcast_inv _ _ _ _ H) as (Ef & Ea & Eo). apply broadcast_index in Eo.
    assert (I : forall k', index a' k' = index a k') by (intros k'; unfold index; now rewrite Eo).
    split.
    - intros k' i Hi. rewrite I in Hi. rewrite Ef, Ea. exact (Ha k' i Hi).
    - intros k' i Hi. split; [exists i; rewrite I; auto|]. rewrite Ef, Ea. auto.
  Qed.
  Lemma event_extends e a a' : full_event c y a e = Ok a' -> aligned a -> aligned a' /\ extends a a'.
  Proof.
    destruct e as [[t [k ty]] byp]. unfold full_event. cbn [fst snd]. destruct ty; try discriminate.
    - apply broadcast_extends.
    - destruct byp as [byp|]; [|discriminate]. apply update_extends.
  Qed.
  Lemma run_extends evs : forall a a', foldM (full_event c y) evs a = Ok a' -> aligned a -> aligned a' /\ extends a a'.
  Proof.
    induction evs as [|e evs IH]; intros a a' H Ha.
    - injection H as <-. split; [exact Ha | apply extends_refl].
    - cbn [foldM] in H. destruct (full_event c y a e) as [a1|] eqn:E; [|discriminate]. cbn [bind] in H.
      destruct (event_extends _ _ _ E Ha) as [A1 X1]. destruct (IH _ _ H A1) as [A2 X2]. split; [exact A2 | eapply extends_trans; eauto].
  Qed.

  (** The run with the final filters goes through the same states. *)
  Lemma replays evs : forall a a', foldM (full_event c y) evs a = Ok a' -> aligned a -> forall a'', agrees a' a'' ->
    foldM (online_event (replay c y a'') y) (map fst evs) (a_s a) = Ok (a_s a').
  Proof.
    induction evs as [|e evs IH]; intros a a' H Ha a'' Hx.
    - injection H as <-. reflexivity.
    - cbn [foldM map] in *. destruct (full_event c y a e) as [a1|] eqn:E; [|discriminate]. cbn [bind] in H.
      destruct (event_extends _ _ _ E Ha) as [A1 X1]. destruct (run_extends _ _ _ H A1) as [A2 X2].
      assert (Ev : online_event (replay c y a'') y (a_s a) (fst e) = Ok (a_s a1)).
      { destruct e as [[t [k ty]] byp]. unfold full_event in E. unfold online_event. cbn [fst snd] in *. destruct ty; try discriminate.
        - destruct (full_broadcast_inv _ _ _ _ E) as (Ef & Ea & Eo). rewrite <- Eo. unfold replay. apply broadcast_agree.
          intros i Hi. destruct (extends_agrees _ _ _ X1 (extends_agrees _ _ _ X2 Hx) k i i Hi (le_n i)) as (_ & _ & F'). symmetry. exact F'.
        - destruct byp as [byp|]; [|discriminate].
          destruct (full_update_inv _ _ _ _ _ E) as (n & n' & x & x' & u & w & _ & _ & _ & _ & _ & _ & _ & _ & Eo).
          destruct (update_index _ _ _ _ _ _ Eo) as (i & Ei & Ei').
          rewrite <- Eo. unfold replay. apply update_agree. intros i' Hi'. rewrite Ei in Hi'. injection Hi' as <-.
          assert (I' : index a1 k = Some (S i)) by (unfold index; rewrite Ei'; apply upd_nth_same, (nth_error_lt _ _ _ Ei)).
          destruct (extends_agrees _ _ _ X2 Hx k (S i) (S i) I' (le_n _)) as (F1 & F2 & _). auto. }
      rewrite Ev. cbn [bind]. apply IH; auto.
  Qed.
End Run.
