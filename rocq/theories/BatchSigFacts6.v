(** Whole runs of batch DANSE: optimality, decrease, fixed point. *)
From Verif Require Import Base BaseFacts Cx CxFacts Scm ScmSpec ScmFacts ScmFacts2 Ext Buffers Batch BatchFacts BatchSig BatchSigSpec BatchSigFacts BatchSigFacts2 BatchSigFacts3 BatchSigFacts4 BatchSigFacts5.
From Coq Require Import Reals Lra.
Local Open Scope R_scope.
Local Open Scope cx_scope.

Lemma ext_of_filters nn bs j f q m : (q < nn)%nat -> ext_of (ext_filters nn bs j) f q m = ext_filter bs j q f m.
Proof.
  intros Hq. unfold ext_of, ext_filters. rewrite (nth_indep _ _ (ext_filter bs j O)) by (rewrite map_length, seq_length; exact Hq).
  rewrite map_nth, seq_nth by exact Hq. reflexivity.
Qed.
Lemma netwide_filters nn ti ms nbrs bs j f k w q m : (q < nn)%nat ->
  netwide ti ms nbrs k w (ext_of (ext_filters nn bs j) f) q m = netwide ti ms nbrs k w (fun q => ext_filter bs j q f) q m.
Proof. intros Hq. unfold netwide. rewrite !ext_of_filters by exact Hq. reflexivity. Qed.

Section Run.
  Variables (nn : nat) (ms : nat -> nat) (ys : nat -> list stft) (vads : nat -> list bool) (nbrs : nat -> list nat) (ti : bool) (ref T : nat).
  Variable inv : nat -> mat -> mat.
  Hypothesis Hd : data_ok nn ms ys vads ref T.
  Hypothesis Hg : forall k, (k < nn)%nat -> good_nbrs nn nbrs k.
  Variables (iters : nat) (up : nat -> nat -> bool) (bs bs' : list (bnode coefs coefs)).
  Notation cov := (tilde_covmats nn ms ys vads nbrs ti).
  Notation neww := (new_w ms nbrs ti ref inv).
  Variable mode : bmode.
  Notation rule := (bext_rule ms ref mode).
  Hypothesis Hst : steps cov neww rule nn iters up bs bs'.
  Variable f : nat.
  Notation dimk k := (dim ms nbrs ti k).
  Notation y := (fun q t m => frame_at (ys q) t f m).
  Notation nw k j w := (netwide ti ms nbrs k w (fun q => ext_filter bs' j q f)).
  Notation es j := (ext_filters nn bs' j).
  Notation invok j k := (is_inverse (dimk k) (fst (cov (es j) k) f) (inv (dimk k) (fst (cov (es j) k) f))).

  Lemma run_optimal j k w : (j < iters)%nat -> (k < nn)%nat -> up j k = true -> invok j k ->
    (error nn ms y (vads k) T k ref (nw k j (int_filter bs' (S j) k f)) <= error nn ms y (vads k) T k ref (nw k j w))%R.
  Proof.
    intros Hj Hk Hu Hi. destruct Hst as [_ H]. destruct (H j k Hj Hk) as [E _]. rewrite Hu in E. rewrite E.
    rewrite <- (error_ext nn ms ys ref T f (vads k) k _ _ (fun q m Hq _ => netwide_filters nn ti ms nbrs bs' j f k (neww k (cov (es j) k) f) q m Hq)).
    rewrite <- (error_ext nn ms ys ref T f (vads k) k _ _ (fun q m Hq _ => netwide_filters nn ti ms nbrs bs' j f k w q m Hq)).
    apply update_optimal; auto.
  Qed.

  Variable v : list bool.
  Hypothesis Hv : forall k, (k < nn)%nat -> vads k = v.
  Hypothesis Hfc : ti = false -> forall k, (k < nn)%nat -> nbrs k = others nn k.
  Variables (p : R) (s : nat -> nat -> cx).
  Hypothesis Hs : single_source nn ms y v T p s.
  Hypothesis Hs0 : forall k, (k < nn)%nat -> s k ref <> czero.
  Notation err k w := (error nn ms y v T k ref w).

  Hypothesis Hm : mode <> RefOnly.
  Definition kept (k : nat) : bool := match mode with NoSingleFusion => Nat.eqb (ms k) 1 | _ => false end.
  Lemma rule_kept k e w : rule k e w = if kept k then e else w.
  Proof. unfold bext_rule, kept. destruct mode; [contradiction | reflexivity | reflexivity]. Qed.
  Lemma single_const k j : kept k = true -> (j <= iters)%nat -> (k < nn)%nat -> ext_filter bs' j k = ext_filter bs 0 k.
  Proof.
    intros E Hj Hk. destruct Hst as [Hz H]. induction j as [|j IH]; [apply Hz|]. destruct (H j k ltac:(lia) Hk) as [_ ->]. rewrite rule_kept, E.
    apply IH. lia.
  Qed.
  Lemma held j q m : (j < iters)%nat -> (q < nn)%nat -> up j q = false ->
    (forall k m, (k < nn)%nat -> (m <= ms k)%nat -> ext_filter bs 0 k f m = int_filter bs 0 k f m) -> (m <= ms q)%nat ->
    ext_filter bs' (S j) q f m = ext_filter bs' j q f m.
  Proof.
    intros Hj Hq Hu H0 Hmq. destruct (kept q) eqn:Ek; [rewrite !single_const by (auto; lia); reflexivity|].
    destruct Hst as [Hz H]. destruct (H j q Hj Hq) as [E1 E2]. rewrite E2, E1, Hu, rule_kept, Ek.
    destruct j as [|j].
    - destruct (Hz q) as [-> ->]. symmetry. apply H0; assumption.
    - destruct (H j q ltac:(lia) Hq) as [_ ->]. rewrite rule_kept, Ek. reflexivity.
  Qed.
  Lemma run_decrease j k q : (S j < iters)%nat -> (k < nn)%nat -> (q < nn)%nat -> k <> q -> (forall r, up j r = Nat.eqb k r) -> up (S j) q = true ->
    (forall k m, (k < nn)%nat -> (m <= ms k)%nat -> ext_filter bs 0 k f m = int_filter bs 0 k f m) ->
    (ti = true -> mode = Fusion /\ int_filter bs' (S j) k f (ms k) <> czero) ->
    (mode = NoSingleFusion -> ms k = 1%nat -> ext_filter bs 0 k f 0%nat <> czero) -> invok (S j) q ->
    (err q (nw q (S j) (int_filter bs' (S (S j)) q f)) / sq (s q ref) <= err k (nw k j (int_filter bs' (S j) k f)) / sq (s k ref))%R.
  Proof.
    intros Hj Hk Hq Hne Hu Hu' H0 Hl Hl' Hi. assert (Hst' := Hst). destruct Hst' as [_ H].
    destruct (H (S j) q Hj Hq) as [E _]. rewrite Hu' in E. rewrite E. destruct (H j k ltac:(lia) Hk) as [_ Ex]. rewrite rule_kept in Ex.
    rewrite <- (error_ext nn ms ys ref T f v q _ _ (fun q0 m Hq _ => netwide_filters nn ti ms nbrs bs' (S j) f q (neww q (cov (es (S j)) q) f) q0 m Hq)).
    rewrite <- (error_ext nn ms ys ref T f v k _ _ (fun q m Hq _ => netwide_filters nn ti ms nbrs bs' j f k (int_filter bs' (S j) k f) q m Hq)).
    apply (next_better nn ms ys vads nbrs ti ref T inv Hd v Hv Hfc Hg f p s Hs Hs0); auto.
    - intros Ht. destruct (Hl Ht) as [Em Hw]. split; [exact Hw|]. intros m _. rewrite ext_of_filters by exact Hk. rewrite Ex. unfold kept. rewrite Em. reflexivity.
    - intros _. destruct (kept k) eqn:Ek.
      + assert (A : ms k = 1%nat) by (unfold kept in Ek; destruct mode; try discriminate; apply Nat.eqb_eq; exact Ek).
        assert (B : mode = NoSingleFusion) by (unfold kept in Ek; destruct mode; congruence).
        exists (int_filter bs' (S j) k f 0%nat * cinv (ext_filter bs 0 k f 0%nat)). intros m Hmk. replace m with 0%nat by lia.
        rewrite ext_of_filters, single_const by (auto; lia).
        transitivity (int_filter bs' (S j) k f 0%nat * (ext_filter bs 0 k f 0%nat * cinv (ext_filter bs 0 k f 0%nat))); [rewrite cinv_r by auto; ring | ring].
      + exists cone. intros m _. rewrite ext_of_filters by exact Hk. rewrite Ex. ring.
    - intros r m Hr Hrk Hmr. rewrite !ext_of_filters by exact Hr. apply held; auto; [lia|]. rewrite Hu. apply Nat.eqb_neq. auto.
  Qed.

  Variable g : cx.
  Hypothesis Hg0 : g <> czero.
  Notation cw := (centr_w nn ms ys vads ref inv).
  Notation nc := (offset ms nn).
  Hypothesis Hci : is_inverse nc (fst (centr_covmats nn ms ys vads) f) (inv nc (fst (centr_covmats nn ms ys vads) f)).
  Notation ato := (at_optimum nn ms ys vads ti ref inv f s g).
  Hypothesis Hinv : forall j k, (j < iters)%nat -> (k < nn)%nat -> up j k = true -> invok j k.
  Variables lx lw : nat -> cx.
  Hypothesis Hx0 : ato lx (fun q => ext_filter bs 0 q f).
  Hypothesis Hw0 : ato lw (fun q => int_filter bs 0 q f).
  Lemma run_fixed j : (j <= iters)%nat -> exists lx lw, ato lx (fun q => ext_filter bs' j q f) /\ ato lw (fun q => int_filter bs' j q f).
  Proof.
    induction j as [|j IH]; intros Hj.
    - exists lx, lw. destruct Hst as [Hz _]. split; intros q Hq; destruct (Hz q) as [Z1 Z2]; [rewrite Z2; apply (Hx0 q Hq) | rewrite Z1; apply (Hw0 q Hq)].
    - destruct IH as (l1 & l2 & A & B); [lia|]. assert (A' : ato l1 (ext_of (es j) f)).
      { intros q Hq. destruct (A q Hq) as (A0 & A1 & A2). split; [exact A0|]. split; [intros m Hmq|intros Ht]; rewrite ext_of_filters by exact Hq; auto. }
      set (l3 := fun q => if up j q then cone else l2 q).
      assert (C : ato l3 (fun q => int_filter bs' (S j) q f)).
      { intros q Hq. destruct Hst as [_ H]. destruct (H j q ltac:(lia) Hq) as [E _]. unfold l3. rewrite E. destruct (up j q) eqn:Eu; [|apply (B q Hq)].
        assert (O := fun i => opt_update nn ms ys vads nbrs ti ref T inv Hd v Hv Hfc Hg f p s Hs Hs0 Hci g Hg0 l1 (es j) q i Hq A' (Hinv j q ltac:(lia) Hq Eu)).
        split; [|split].
        - intros E1. injection E1 as E1. lra.
        - intros m Hmq. rewrite O by (unfold dim; lia). unfold opt_w. destruct (Nat.ltb_spec m (ms q)); [ring | lia].
        - intros Ht. rewrite O by (unfold dim; rewrite Ht; lia). unfold opt_w. destruct (Nat.ltb_spec (ms q) (ms q)); [lia|]. rewrite Ht. ring. }
      exists (fun q => if kept q then l1 q else l3 q), l3. split; [|exact C]. intros q Hq. destruct Hst as [_ H]. destruct (H j q ltac:(lia) Hq) as [_ E]. rewrite E, rule_kept.
      destruct (kept q); [apply (A q Hq) | apply (C q Hq)].
  Qed.
  Lemma run_fixed_filter j k q m : (j < iters)%nat -> (k < nn)%nat -> up j k = true -> (q < nn)%nat -> (m < ms q)%nat ->
    nw k j (int_filter bs' (S j) k f) q m = cw k f (offset ms q + m)%nat.
  Proof.
    intros Hj Hk Hu Hq Hmq. destruct (run_fixed j ltac:(lia)) as (l1 & _ & A & _). assert (A' : ato l1 (ext_of (es j) f)).
    { intros r Hr. destruct (A r Hr) as (A0 & A1 & A2). split; [exact A0|]. split; [intros i Hi|intros Ht]; rewrite ext_of_filters by exact Hr; auto. }
    destruct Hst as [_ H]. destruct (H j k ltac:(lia) Hk) as [E _]. rewrite Hu in E. rewrite E.
    assert (O := fun i => opt_update nn ms ys vads nbrs ti ref T inv Hd v Hv Hfc Hg f p s Hs Hs0 Hci g Hg0 l1 (es j) k i Hk A' (Hinv j k Hj Hk Hu)).
    rewrite <- netwide_filters with (nn := nn) by exact Hq.
    change (cw k f (offset ms q + m)%nat) with (split_w ms (cw k f) q m).
    rewrite <- (opt_netwide nn ms ys vads nbrs ti ref T inv Hd v Hv Hfc Hg f p s Hs Hs0 Hci g Hg0 l1 k (ext_of (es j) f) q m Hk Hq Hmq A').
    unfold netwide. destruct (Nat.eqb_spec q k) as [->|Hqk]; [apply O; unfold dim; lia|].
    destruct ti eqn:Et; [rewrite O by (unfold dim; lia); reflexivity|].
    destruct (index_of q (nbrs k)) as [i|] eqn:Ei; [|reflexivity]. rewrite O; [reflexivity|]. unfold dim. apply index_of_lt in Ei. lia.
  Qed.
End Run.

Lemma sim_succeeds {M W E} (covmats : list E -> nat -> M) (solve : nat -> M -> W) rule iters : forall i (bs : list (bnode W E)), at_iter W E i bs ->
  (forall b, In b bs -> (i + iters < length (b_w b) /\ i + iters < length (b_ext b))%nat) -> exists bs', batch_sim covmats solve rule iters bs = Ok bs'.
Proof.
  induction iters as [|it IH]; intros i bs Hi Hl; [eexists; reflexivity|]. cbn [batch_sim].
  destruct (iter_succeeds _ _ _ covmats solve rule (fun _ => true) i bs Hi) as [bs1 Eit]; [intros b Hb; destruct (Hl b Hb); lia|]. rewrite Eit. cbn [bind].
  apply (IH (S i)); [eapply iter_at; eauto|]. intros b' Hb'. destruct (iter_keeps _ _ _ _ _ _ _ _ _ _ Eit Hi) as [L K]. apply In_nth_error in Hb'. destruct Hb' as [k Hb'].
  assert (Hlt : (k < length bs)%nat) by (rewrite <- L; apply nth_error_Some; congruence).
  destruct (nth_error bs k) as [b|] eqn:Eb; [|apply nth_error_None in Eb; lia].
  destruct (K k b Eb) as (b2 & E2 & E3 & E4 & _). assert (b2 = b') by congruence. subst b2. rewrite E3, E4.
  destruct (Hl b (nth_error_In _ _ Eb)). lia.
Qed.

Section Final.
  Variables (nn : nat) (ms : nat -> nat) (ys : nat -> list stft) (vads : nat -> list bool) (nbrs : nat -> list nat) (ti : bool) (ref T : nat).
  Variable inv : nat -> mat -> mat.
  Variable mode : bmode.
  Hypothesis Hd : data_ok nn ms ys vads ref T.
  Hypothesis Hg : forall k, (k < nn)%nat -> good_nbrs nn nbrs k.
  Variables (iters : nat) (bs : list (bnode coefs coefs)).
  Hypothesis Hn : length bs = nn.
  Hypothesis Hr : ready iters bs.
  Notation cov := (tilde_covmats nn ms ys vads nbrs ti).
  Notation neww := (new_w ms nbrs ti ref inv).
  Notation rule := (bext_rule ms ref mode).
  Lemma seq_run_steps : (0 < nn)%nat -> exists bs', danse_seq nn ms ys vads nbrs ti ref inv mode iters 0 bs = Ok bs' /\ steps cov neww rule nn iters (fun j k => Nat.eqb (j mod nn) k) bs bs'.
  Proof.
    intros H0. destruct (seq_succeeds _ _ _ cov neww rule iters 0 0 bs) as [bs' H].
    - intros b Hb. apply (Hr b Hb).
    - intros b Hb. apply (Hr b Hb).
    - exists bs'. split; [exact H|]. apply (seq_steps cov neww rule nn iters bs bs' Hn H0 Hr H).
  Qed.
  Lemma sim_run_steps : exists bs', danse_sim nn ms ys vads nbrs ti ref inv mode iters bs = Ok bs' /\ steps cov neww rule nn iters (fun _ _ => true) bs bs'.
  Proof.
    destruct (sim_succeeds cov neww rule iters 0 bs) as [bs' H].
    - intros b Hb. apply (Hr b Hb).
    - intros b Hb. apply (Hr b Hb).
    - exists bs'. split; [exact H|]. apply (sim_steps cov neww rule nn iters bs bs' Hn Hr H).
  Qed.
  (** all the comparisons at once *)
  Lemma optimal_all up bs' f j k : steps cov neww rule nn iters up bs bs' -> (j < iters)%nat -> (k < nn)%nat -> up j k = true ->
    is_inverse (dim ms nbrs ti k) (fst (cov (ext_filters nn bs' j) k) f) (inv (dim ms nbrs ti k) (fst (cov (ext_filters nn bs' j) k) f)) ->
    let err := error nn ms (fun q t m => frame_at (ys q) t f m) (vads k) T k ref in
    let via w := netwide ti ms nbrs k w (fun q => ext_filter bs' j q f) in
    (forall w, err (via (int_filter bs' (S j) k f)) <= err (via w))%R /\
    (forall u, own_only k u -> err (via (int_filter bs' (S j) k f)) <= err u)%R /\
    (forall v, (forall q, (q < nn)%nat -> vads q = v) ->
       is_inverse (offset ms nn) (fst (centr_covmats nn ms ys vads) f) (inv (offset ms nn) (fst (centr_covmats nn ms ys vads) f)) ->
       err (fun q m => centr_w nn ms ys vads ref inv k f (offset ms q + m)%nat) <= err (via (int_filter bs' (S j) k f)))%R.
  Proof.
    intros Hst Hj Hk Hu Hi err via.
    assert (O : forall w, (err (via (int_filter bs' (S j) k f)) <= err (via w))%R).
    { intros w. apply (run_optimal nn ms ys vads nbrs ti ref T inv Hd Hg iters up bs bs' mode Hst f j k w Hj Hk Hu Hi). }
    split; [exact O|]. split.
    - intros u Hu'. destruct (own_only_netwide nn ms nbrs ti inv k u (fun q => ext_filter bs' j q f) (Hg k Hk) Hu') as [w Hw].
      assert (E := error_ext nn ms ys ref T f (vads k) k u (via w) (fun q m _ Hm => Hw q m Hm)). unfold err at 2. rewrite E. apply O.
    - intros v Hv Hci. unfold err. rewrite (Hv k Hk). apply (centr_optimal nn ms ys vads nbrs ref T inv Hd v Hv k f _ Hk Hci).
  Qed.
End Final.
