(** Proofs about filter updates. *)
From Verif Require Import Base BaseFacts Buffers BufFacts Filt FiltSpec.
Open Scope nat_scope.

Section Facts.
  Variables Fr M W : Type.
  Variable outer : Fr -> M.
  Variable avg : M -> M -> M.
  Variable valid : nat -> M -> M -> bool.
  Variable solve : nat -> M -> M -> W.
  Variable p : fparams.
  Notation est := (est M W).
  Notation fnode := (fnode M W).
  Notation uevent := (uevent Fr).
  Notation step := (filt_step outer avg valid solve p).
  Notation run := (filt_run outer avg valid solve p).
  Notation perf := (perform solve p).

  Definition nyy' (n : fnode) (u : uevent) := if u_vad u then S (fn_yy n) else fn_yy n.
  Definition nnn' (n : fnode) (u : uevent) := if u_vad u then fn_nn n else S (fn_nn n).

  (** matrices and flag of one estimator after the event *)
  Definition mid (wh : which) (n : fnode) (u : uevent) (e : est) : est :=
    check_covmats valid p (nyy' n u) (nnn' n u) (u_t u) (scm_update outer avg p (nyy' n u) (nnn' n u) (vad wh u) (frame wh u) e).

  Definition fin (wh : which) (i : nat) (u : uevent) (e : est) : res est :=
    if negb (u_skip u) && negb (u_bypass u) then
      match wh with Centr => perform_centr solve p i (u_skipc u) e | _ => perf i e end
    else match wh with
         | Danse | Local => hold i e
         | Centr | Ssbc => if u_bypass u then hold i e else Ok e
         end.

  Lemma step_inv n u n' : step n u = Ok n' ->
    fn_i n' = S (fn_i n) /\ fn_yy n' = nyy' n u /\ fn_nn n' = nnn' n u /\
    forall wh, match estimator wh n with
               | None => estimator wh n' = None
               | Some e => exists e', estimator wh n' = Some e' /\ fin wh (fn_i n) u (mid wh n u e) = Ok e'
               end.
  Proof.
    unfold filt_step. cbv zeta. fold (nyy' n u) (nnn' n u). intros H.
    set (d := check_covmats valid p (nyy' n u) (nnn' n u) (u_t u) (scm_update outer avg p (nyy' n u) (nnn' n u) (u_vad u) (u_y u) (fn_danse n))) in H.
    assert (Ed : d = mid Danse n u (fn_danse n)) by reflexivity.
    destruct (negb (u_skip u) && negb (u_bypass u)) eqn:Eb.
    - destruct (perf (fn_i n) d) as [d'|] eqn:E1; [|discriminate]. cbn [bind] in H.
      destruct (opt_map _ (option_map _ (fn_centr n))) as [c'|] eqn:E2; [|discriminate]. cbn [bind] in H.
      destruct (opt_map _ (option_map _ (fn_local n))) as [l'|] eqn:E3; [|discriminate]. cbn [bind] in H.
      destruct (opt_map _ (option_map _ (fn_ssbc n))) as [s'|] eqn:E4; [|discriminate]. cbn [bind] in H.
      injection H as <-. do 3 (split; [reflexivity|]).
      intros wh. unfold fin. rewrite Eb. destruct wh; cbn [estimator fn_danse fn_local fn_centr fn_ssbc].
      + exists d'. split; [reflexivity | exact E1].
      + destruct (fn_local n) as [e|]; cbn [option_map opt_map] in E3; [|congruence].
        destruct (perf _ _) as [e'|] eqn:E in E3; [|discriminate]. cbn [bind] in E3. injection E3 as <-. exists e'. split; [reflexivity | exact E].
      + destruct (fn_centr n) as [e|]; cbn [option_map opt_map] in E2; [|congruence].
        destruct (perform_centr _ _ _ _ _) as [e'|] eqn:E in E2; [|discriminate]. cbn [bind] in E2. injection E2 as <-. exists e'. split; [reflexivity | exact E].
      + destruct (fn_ssbc n) as [e|]; cbn [option_map opt_map] in E4; [|congruence].
        destruct (perf _ _) as [e'|] eqn:E in E4; [|discriminate]. cbn [bind] in E4. injection E4 as <-. exists e'. split; [reflexivity | exact E].
    - destruct (hold (fn_i n) d) as [d'|] eqn:E1; [|discriminate]. cbn [bind] in H.
      destruct (opt_map _ (option_map _ (fn_local n))) as [l'|] eqn:E3; [|discriminate]. cbn [bind] in H.
      assert (HL : match fn_local n with None => l' = None | Some e => exists e', l' = Some e' /\ hold (fn_i n) (mid Local n u e) = Ok e' end).
      { destruct (fn_local n) as [e|]; cbn [option_map opt_map] in E3; [|congruence].
        destruct (hold _ _) as [e'|] eqn:E in E3; [|discriminate]. cbn [bind] in E3. injection E3 as <-. exists e'. split; [reflexivity | exact E]. }
      destruct (u_bypass u) eqn:Ebp.
      + destruct (opt_map _ (option_map _ (fn_centr n))) as [c'|] eqn:E2; [|discriminate]. cbn [bind] in H.
        destruct (opt_map _ (option_map _ (fn_ssbc n))) as [s'|] eqn:E4; [|discriminate]. cbn [bind] in H.
        injection H as <-. do 3 (split; [reflexivity|]).
        intros wh. unfold fin. rewrite Ebp, Eb. destruct wh; cbn [estimator fn_danse fn_local fn_centr fn_ssbc].
        * exists d'. split; [reflexivity | exact E1].
        * exact HL.
        * destruct (fn_centr n) as [e|]; cbn [option_map opt_map] in E2; [|congruence].
          destruct (hold _ _) as [e'|] eqn:E in E2; [|discriminate]. cbn [bind] in E2. injection E2 as <-. exists e'. split; [reflexivity | exact E].
        * destruct (fn_ssbc n) as [e|]; cbn [option_map opt_map] in E4; [|congruence].
          destruct (hold _ _) as [e'|] eqn:E in E4; [|discriminate]. cbn [bind] in E4. injection E4 as <-. exists e'. split; [reflexivity | exact E].
      + cbn [bind] in H. injection H as <-. do 3 (split; [reflexivity|]).
        intros wh. unfold fin. rewrite Ebp, Eb. destruct wh; cbn [estimator fn_danse fn_local fn_centr fn_ssbc].
        * exists d'. split; [reflexivity | exact E1].
        * exact HL.
        * destruct (fn_centr n) as [e|]; [|reflexivity]. eexists; split; reflexivity.
        * destruct (fn_ssbc n) as [e|]; [|reflexivity]. eexists; split; reflexivity.
  Qed.

  (** the final part leaves matrices, flag and dimension alone *)
  Lemma set_w_inv i w (e e' : est) : set_w i w e = Ok e' -> S i < length (e_w e) /\ e' = mkE (e_ryy e) (e_rnn e) (e_start e) (upd (S i) w (e_w e)) (e_ups e) (e_dim e).
  Proof. unfold set_w. destruct (Nat.ltb_spec (S i) (length (e_w e))); [|discriminate]. intros H'. injection H' as <-. auto. Qed.
  Lemma hold_inv i (e e' : est) : hold i e = Ok e' -> exists w, nth_error (e_w e) i = Some w /\ S i < length (e_w e) /\
    e' = mkE (e_ryy e) (e_rnn e) (e_start e) (upd (S i) w (e_w e)) (e_ups e) (e_dim e).
  Proof.
    unfold hold, get. destruct (nth_error (e_w e) i) as [w|]; [|discriminate]. cbn [bind]. intros H. apply set_w_inv in H. exists w. tauto.
  Qed.
  Lemma perform_inv i (e e' : est) : perf i e = Ok e' ->
    (negb (f_bypass_all p) && e_start e = true /\ S i < length (e_w e) /\
     e' = mkE (e_ryy e) (e_rnn e) (e_start e) (upd (S i) (solve (e_dim e) (e_ryy e) (e_rnn e)) (e_w e)) (S (e_ups e)) (e_dim e)) \/
    (negb (f_bypass_all p) && e_start e = false /\ e' = e).
  Proof.
    unfold perform. destruct (negb (f_bypass_all p) && e_start e) eqn:Eb.
    - destruct (set_w i _ e) as [e1|] eqn:E; [|discriminate]. apply set_w_inv in E. destruct E as [H1 ->]. cbn. intros H. injection H as <-. left. auto.
    - intros H. injection H as <-. right. auto.
  Qed.

  (** summary of the final part: updated, held, or untouched *)
  Inductive outcome (wh : which) (i : nat) (u : uevent) (e e' : est) : Prop :=
  | o_upd : u_bypass u = false -> u_skip u = false -> (wh = Centr -> u_skipc u = false) -> f_bypass_all p = false -> e_start e = true -> S i < length (e_w e) ->
      e' = mkE (e_ryy e) (e_rnn e) (e_start e) (upd (S i) (solve (e_dim e) (e_ryy e) (e_rnn e)) (e_w e)) (S (e_ups e)) (e_dim e) -> outcome wh i u e e'
  | o_hold w : (u_bypass u = true \/ u_skip u = true \/ (wh = Centr /\ u_skipc u = true)) -> nth_error (e_w e) i = Some w -> S i < length (e_w e) ->
      e' = mkE (e_ryy e) (e_rnn e) (e_start e) (upd (S i) w (e_w e)) (e_ups e) (e_dim e) -> outcome wh i u e e'
  | o_none : e' = e -> (f_bypass_all p = true \/ e_start e = false \/ (u_skip u = true /\ u_bypass u = false /\ (wh = Centr \/ wh = Ssbc))) -> outcome wh i u e e'.

  Lemma fin_outcome wh i u e e' : fin wh i u e = Ok e' -> outcome wh i u e e'.
  Proof.
    unfold fin. destruct (negb (u_skip u) && negb (u_bypass u)) eqn:Eb.
    - apply andb_true_iff in Eb. destruct Eb as [E1 E2]. apply negb_true_iff in E1, E2.
      assert (HP : perf i e = Ok e' -> (wh = Centr -> f_bypass_all p = false -> e_start e = true -> u_skipc u = false) -> outcome wh i u e e').
      { intros H Hc. apply perform_inv in H. destruct H as [[H1 [H2 H3]]|[H1 H2]].
        - apply andb_true_iff in H1. destruct H1 as [Ha Hb]. apply negb_true_iff in Ha. apply o_upd; auto.
        - apply o_none; [exact H2|]. apply andb_false_iff in H1. destruct H1 as [H1|H1]; [left; apply negb_false_iff; exact H1 | right; left; exact H1]. }
      destruct wh; try (intros H; apply HP; [exact H | discriminate]).
      unfold perform_centr. destruct (negb (f_bypass_all p) && e_start e && u_skipc u) eqn:Ec.
      + intros H. apply hold_inv in H. destruct H as [w [H1 [H2 H3]]]. apply andb_true_iff in Ec. destruct Ec as [_ Ec].
        eapply o_hold; eauto.
      + intros H. apply HP; [exact H|]. intros _ Ha Hb. rewrite Ha, Hb in Ec. exact Ec.
    - assert (Hor : u_bypass u = true \/ u_skip u = true).
      { apply andb_false_iff in Eb. destruct Eb as [E|E]; apply negb_false_iff in E; auto. }
      assert (HH : hold i e = Ok e' -> outcome wh i u e e').
      { intros H. apply hold_inv in H. destruct H as [w [H1 [H2 H3]]]. eapply o_hold; eauto. destruct Hor; auto. }
      destruct wh; try exact HH; (destruct (u_bypass u) eqn:Ebp; [exact HH|]); intros H; injection H as <-; apply o_none; auto;
        right; right; (split; [destruct Hor; [discriminate | assumption]|]); auto.
  Qed.

  Lemma outcome_fields wh i u e e' : outcome wh i u e e' ->
    e_ryy e' = e_ryy e /\ e_rnn e' = e_rnn e /\ e_start e' = e_start e /\ e_dim e' = e_dim e /\ length (e_w e') = length (e_w e) /\
    (forall j, j <= i -> nth_error (e_w e') j = nth_error (e_w e) j) /\ (forall j, S i < j -> nth_error (e_w e') j = nth_error (e_w e) j).
  Proof.
    intros [?? ?? ?? ->|w ?? ? ->| -> ?]; cbn [e_ryy e_rnn e_start e_dim e_w]; rewrite ?upd_length; do 5 (split; [reflexivity|]); split; intros j Hj;
      try reflexivity; apply upd_nth_other; lia.
  Qed.

  (** counters *)
  Lemma step_counts n u n' : step n u = Ok n' -> fn_i n' = S (fn_i n) /\
    fn_yy n' = fn_yy n + (if u_vad u then 1 else 0) /\ fn_nn n' = fn_nn n + (if u_vad u then 0 else 1).
  Proof. intros H. apply step_inv in H. destruct H as (H1 & H2 & H3 & _). unfold nyy', nnn' in *. rewrite H1, H2, H3. destruct (u_vad u); lia. Qed.

  Lemma run_counts us : forall n n', run us n = Ok n' -> fn_i n' = fn_i n + length us /\
    fn_yy n' = fn_yy n + speech_frames us /\ fn_nn n' = fn_nn n + noise_frames us.
  Proof.
    induction us as [|u us IH]; intros n n' H; unfold filt_run in H; cbn [foldM] in H.
    - injection H as <-. unfold speech_frames, noise_frames. simpl. lia.
    - destruct (step n u) as [n1|] eqn:E; [|discriminate]. cbn [bind] in H. apply step_counts in E. apply IH in H.
      unfold speech_frames, noise_frames in *. simpl. destruct (u_vad u); simpl; lia.
  Qed.

  Lemma run_app us u n n' : run us n = Ok n' -> run (us ++ [u]) n = step n' u.
  Proof.
    intros H. unfold filt_run in *. rewrite foldM_app, H. cbn [bind foldM]. destruct (step n' u); reflexivity.
  Qed.

  Lemma run_invariant (I : list uevent -> fnode -> Prop) n0 :
    I [] n0 -> (forall us n u n', run us n0 = Ok n -> I us n -> step n u = Ok n' -> I (us ++ [u]) n') ->
    forall us n, run us n0 = Ok n -> I us n.
  Proof.
    intros H0 HS us. induction us as [|u us IH] using rev_ind; intros n H.
    - injection H as <-. exact H0.
    - unfold filt_run in H. rewrite foldM_app in H. destruct (foldM step us n0) as [n1|] eqn:E; [|discriminate]. cbn [bind foldM] in H.
      destruct (step n1 u) as [n2|] eqn:E2; [|discriminate]. injection H as <-. eapply HS; eauto.
  Qed.

  (** flag after the event *)
  Lemma mid_start wh n u e : e_start (mid wh n u e) = true ->
    e_start e = true \/ f_batch_init p = true \/
    ((f_start_after p <= u_t u)%Z /\ e_dim e < nyy' n u /\ e_dim e < nnn' n u /\ valid (e_dim e) (e_rnn (mid wh n u e)) (e_ryy (mid wh n u e)) = true).
  Proof.
    unfold mid, check_covmats. cbn [e_start]. set (s := scm_update outer avg p (nyy' n u) (nnn' n u) (vad wh u) (frame wh u) e).
    assert (Es : e_start s = e_start e) by (unfold s, scm_update; destruct (f_use1st p); reflexivity).
    assert (Ed : e_dim s = e_dim e) by (unfold s, scm_update; destruct (f_use1st p); reflexivity).
    rewrite Es, Ed. destruct (f_batch_init p); [auto|]. destruct (e_start e); cbn [negb andb]; [auto|].
    destruct (Z.leb_spec (f_start_after p) (u_t u)); [|discriminate]. intros H'. apply andb_true_iff in H'. destruct H' as [H1 H2].
    apply andb_true_iff in H1. right; right. cbn [e_rnn e_ryy]. lia.
  Qed.
  Lemma mid_keeps wh n u e : e_start e = true -> e_start (mid wh n u e) = true.
  Proof.
    unfold mid, check_covmats. cbn [e_start]. set (s := scm_update outer avg p (nyy' n u) (nnn' n u) (vad wh u) (frame wh u) e).
    assert (Es : e_start s = e_start e) by (unfold s, scm_update; destruct (f_use1st p); reflexivity).
    rewrite Es. intros ->. destruct (f_batch_init p); reflexivity.
  Qed.
  Lemma mid_rest wh n u e : e_w (mid wh n u e) = e_w e /\ e_ups (mid wh n u e) = e_ups e /\ e_dim (mid wh n u e) = e_dim e.
  Proof. unfold mid, check_covmats, scm_update. destruct (f_use1st p); cbn; auto. Qed.

  Lemma step_est n u n' wh e : step n u = Ok n' -> estimator wh n = Some e ->
    exists e', estimator wh n' = Some e' /\ outcome wh (fn_i n) u (mid wh n u e) e'.
  Proof.
    intros H He. apply step_inv in H. destruct H as (_ & _ & _ & H). specialize (H wh). rewrite He in H.
    destruct H as [e' [H1 H2]]. exists e'. split; [exact H1 | apply fin_outcome; exact H2].
  Qed.
  Lemma step_est_back n u n' wh e' : step n u = Ok n' -> estimator wh n' = Some e' ->
    exists e, estimator wh n = Some e /\ outcome wh (fn_i n) u (mid wh n u e) e'.
  Proof.
    intros H He. pose proof H as H0. apply step_inv in H. destruct H as (_ & _ & _ & H). specialize (H wh).
    destruct (estimator wh n) as [e|] eqn:E; [|congruence]. destruct H as [e1 [H1 H2]]. exists e. split; [reflexivity|].
    assert (e1 = e') by congruence. subst. apply fin_outcome. exact H2.
  Qed.

  (** ** Enabling *)
  Lemma started_why us n0 n wh e : fresh n0 -> run us n0 = Ok n -> estimator wh n = Some e -> e_start e = true ->
    f_batch_init p = false ->
    e_dim e < speech_frames us /\ e_dim e < noise_frames us /\ exists u, In u us /\ (f_start_after p <= u_t u)%Z.
  Proof.
    intros Hf Hr He Hs Hb. revert wh e He Hs.
    apply (run_invariant (fun us n => forall wh e, estimator wh n = Some e -> e_start e = true ->
      e_dim e < speech_frames us /\ e_dim e < noise_frames us /\ exists u, In u us /\ (f_start_after p <= u_t u)%Z) n0); [| |exact Hr].
    - intros wh e He Hs. destruct Hf as (_ & _ & _ & Hf). destruct (Hf wh e He) as [H _]. congruence.
    - clear us n Hr. intros us n u n' Hr HI Hst wh e' He' Hs. destruct (step_est_back _ _ _ _ _ Hst He') as [e [He Ho]].
      destruct (outcome_fields _ _ _ _ _ Ho) as (_ & _ & Es & Ed & _). rewrite Es in Hs. rewrite Ed.
      destruct (mid_rest wh n u e) as (_ & _ & Edm). rewrite Edm.
      assert (HC := run_counts us n0 n Hr). destruct Hf as (F1 & F2 & F3 & _). rewrite F1, F2, F3 in HC. destruct HC as (_ & C2 & C3).
      assert (S1 : speech_frames (us ++ [u]) = nyy' n u).
      { unfold speech_frames, nyy'. rewrite filter_app, app_length, C2. unfold speech_frames. simpl. destruct (u_vad u); simpl; lia. }
      assert (S2 : noise_frames (us ++ [u]) = nnn' n u).
      { unfold noise_frames, nnn'. rewrite filter_app, app_length, C3. unfold noise_frames. simpl. destruct (u_vad u); simpl; lia. }
      apply mid_start in Hs. destruct Hs as [Hs|[Hs|(H1 & H2 & H3 & _)]]; [|congruence|].
      + destruct (HI wh e He Hs) as (A & B & u' & C1 & D). simpl in C2, C3. rewrite S1, S2. unfold nyy', nnn'. rewrite C2, C3.
        split; [destruct (u_vad u); lia|]. split; [destruct (u_vad u); lia|]. exists u'. split; [apply in_or_app; auto | exact D].
      + rewrite S1, S2. split; [exact H2|]. split; [exact H3|]. exists u. split; [apply in_or_app; right; left; reflexivity | exact H1].
  Qed.

  Lemma update_conditions us n0 n u n' wh : fresh n0 -> run us n0 = Ok n -> step n u = Ok n' -> updated wh n n' ->
    f_batch_init p = false ->
    u_bypass u = false /\ u_skip u = false /\
    (exists e, estimator wh n' = Some e /\ e_start e = true /\ e_dim e < speech_frames (us ++ [u]) /\ e_dim e < noise_frames (us ++ [u])) /\
    exists u', In u' (us ++ [u]) /\ (f_start_after p <= u_t u')%Z.
  Proof.
    intros Hf Hr Hst (e & e' & He & He' & Hu) Hb.
    destruct (step_est _ _ _ _ _ Hst He) as [e1 [He1 Ho]]. assert (e1 = e') by congruence. subst e1.
    destruct (mid_rest wh n u e) as (_ & Eu & _).
    destruct (outcome_fields _ _ _ _ _ Ho) as (_ & _ & Es & _).
    assert (HS : e_start e' = true /\ u_bypass u = false /\ u_skip u = false).
    { destruct Ho as [H1 H2 H3 H4 H5 H6 H7|w H1 H2 H3 H4|H1 H2].
      - rewrite Es. auto. - rewrite H4 in Hu. cbn [e_ups] in Hu. lia. - rewrite H1 in Hu. lia. }
    destruct HS as (HS & H1 & H2). split; [exact H1|]. split; [exact H2|].
    assert (Hr' : run (us ++ [u]) n0 = Ok n') by (rewrite (run_app us u n0 n Hr); exact Hst).
    destruct (started_why (us ++ [u]) n0 n' wh e' Hf Hr' He' HS Hb) as (A & B & C). split; [|exact C]. exists e'. auto.
  Qed.

  Lemma never_stops us : forall n n' wh e, run us n = Ok n' -> estimator wh n = Some e -> e_start e = true ->
    exists e', estimator wh n' = Some e' /\ e_start e' = true.
  Proof.
    induction us as [|u us IH]; intros n n' wh e H He Hs; unfold filt_run in H; cbn [foldM] in H.
    - injection H as <-. exists e. auto.
    - destruct (step n u) as [n1|] eqn:E; [|discriminate]. cbn [bind] in H. destruct (step_est _ _ _ _ _ E He) as [e1 [He1 Ho]].
      destruct (outcome_fields _ _ _ _ _ Ho) as (_ & _ & Es & _). apply (IH n1 n' wh e1 H He1). rewrite Es. apply mid_keeps. exact Hs.
  Qed.

  Lemma always_updates n u n' wh e : step n u = Ok n' -> estimator wh n = Some e -> e_start e = true ->
    f_bypass_all p = false -> u_bypass u = false -> u_skip u = false -> u_skipc u = false -> updated wh n n'.
  Proof.
    intros Hst He Hs Hba Hbp Hsk Hsc. destruct (step_est _ _ _ _ _ Hst He) as [e1 [He1 Ho]]. exists e, e1. split; [exact He|]. split; [exact He1|].
    destruct (mid_rest wh n u e) as (_ & Eu & _). destruct Ho as [H1 H2 H3 H4 H5 H6 H7|w H1 H2 H3 H4|H1 H2].
    - rewrite H7. cbn [e_ups]. rewrite Eu. reflexivity.
    - destruct H1 as [H1|[H1|[_ H1]]]; congruence.
    - exfalso. rewrite (mid_keeps wh n u e Hs) in H2. destruct H2 as [H2|[H2|[H2 _]]]; congruence.
  Qed.

  (** ** Matrices *)
  Lemma matrices n u n' wh e : step n u = Ok n' -> estimator wh n = Some e -> wh <> Centr \/ f_use1st p = false ->
    exists e', estimator wh n' = Some e' /\
      (vad wh u = true ->
         e_rnn e' = e_rnn e /\ e_ryy e' = if f_use1st p && Nat.eqb (fn_yy n) 0 then outer (frame wh u) else avg (e_ryy e) (outer (frame wh u))) /\
      (vad wh u = false ->
         e_ryy e' = e_ryy e /\ e_rnn e' = if f_use1st p && Nat.eqb (fn_nn n) 0 then outer (frame wh u) else avg (e_rnn e) (outer (frame wh u))).
  Proof.
    intros Hst He Hc. destruct (step_est _ _ _ _ _ Hst He) as [e' [He' Ho]]. exists e'. split; [exact He'|].
    destruct (outcome_fields _ _ _ _ _ Ho) as (E1 & E2 & _). rewrite E1, E2. unfold mid, check_covmats, scm_update. cbn [e_ryy e_rnn].
    unfold nyy', nnn'.
    assert (Hv : f_use1st p = true -> vad wh u = u_vad u) by (destruct wh, Hc; try reflexivity; congruence).
    destruct (f_use1st p); cbn [andb e_ryy e_rnn].
    - rewrite (Hv eq_refl). clear Hv. destruct (u_vad u); split; intros H; try discriminate; cbn [andb negb].
      + rewrite andb_true_r, andb_false_r. split; [destruct (Nat.ltb 1 (fn_nn n)); reflexivity|].
        destruct (Nat.eqb_spec (fn_yy n) 0) as [->|Hn]; [reflexivity|].
        destruct (Nat.eqb_spec (S (fn_yy n)) 1); [lia|]. destruct (Nat.ltb_spec 1 (S (fn_yy n))); [reflexivity | lia].
      + rewrite andb_true_r, andb_false_r. split; [destruct (Nat.ltb 1 (fn_yy n)); reflexivity|].
        destruct (Nat.eqb_spec (fn_nn n) 0) as [->|Hn]; [reflexivity|].
        destruct (Nat.eqb_spec (S (fn_nn n)) 1); [lia|]. destruct (Nat.ltb_spec 1 (S (fn_nn n))); [reflexivity | lia].
    - destruct (vad wh u); split; intros H; try discriminate; auto.
  Qed.

  (** ** Filters *)
  Definition untouched (i : nat) (e : est) : Prop :=
    exists w0, (forall j w, i < j -> nth_error (e_w e) j = Some w -> w = w0) /\
               ((e_start e = false \/ f_bypass_all p = true) -> forall w, In w (e_w e) -> w = w0).

  Lemma untouched_step wh i u e e' : untouched i e -> (e_start e = true -> e_start e' = true) ->
    (exists em, e_w em = e_w e /\ e_start em = e_start e' /\ outcome wh i u em e') -> untouched (S i) e'.
  Proof.
    intros [w0 [H1 H2]] Hs (em & Ew & Est & Ho). exists w0.
    destruct (outcome_fields _ _ _ _ _ Ho) as (_ & _ & Es & _ & _ & Hlo & Hhi).
    split.
    - intros j w Hj Hw. rewrite Hhi in Hw by lia. rewrite Ew in Hw. apply (H1 j w); [lia | exact Hw].
    - intros Hn w Hw.
      assert (Hn' : e_start e = false \/ f_bypass_all p = true).
      { destruct Hn as [Hn|Hn]; [left | right; exact Hn]. destruct (e_start e); [rewrite Hs in Hn by reflexivity; discriminate | reflexivity]. }
      specialize (H2 Hn'). destruct Ho as [A1 A2 A3 A4 A5 A6 A7|w' A1 A2 A3 A4|A1 A2].
      + exfalso. rewrite Est in A5. destruct Hn; congruence.
      + rewrite A4 in Hw. cbn [e_w] in Hw. apply In_nth_error in Hw. destruct Hw as [j Hj].
        destruct (Nat.eq_dec j (S i)) as [->|Hne].
        * rewrite upd_nth_same in Hj by exact A3. injection Hj as <-. apply H2. rewrite <- Ew. eapply nth_error_In; eauto.
        * rewrite upd_nth_other in Hj by lia. apply H2. rewrite <- Ew. eapply nth_error_In; eauto.
      + apply H2. rewrite <- Ew, <- A1. exact Hw.
  Qed.

  Lemma run_untouched us n0 n wh e : fresh n0 -> run us n0 = Ok n -> estimator wh n = Some e -> untouched (fn_i n) e.
  Proof.
    intros Hf Hr. revert wh e.
    refine (run_invariant (fun us n => forall wh e, estimator wh n = Some e -> untouched (fn_i n) e) n0 _ _ us n Hr).
    - intros wh e He. destruct Hf as (_ & _ & _ & Hf). destruct (Hf wh e He) as (_ & _ & w0 & Hw). exists w0. split; [|auto].
      intros j w _ Hj. apply Hw. eapply nth_error_In; eauto.
    - clear us n Hr. intros us n u n' Hr HI Hst wh e' He'. destruct (step_est_back _ _ _ _ _ Hst He') as [e [He Ho]].
      destruct (step_counts _ _ _ Hst) as (Ei & _). rewrite Ei. destruct (mid_rest wh n u e) as (Ew & _).
      destruct (outcome_fields _ _ _ _ _ Ho) as (_ & _ & Es & _).
      apply (untouched_step wh (fn_i n) u e e'); [apply (HI wh); exact He | |].
      + intros Hs. rewrite Es. apply mid_keeps. exact Hs.
      + exists (mid wh n u e). split; [exact Ew|]. split; [congruence | exact Ho].
  Qed.

  Lemma filters us n0 n u n' wh e : fresh n0 -> run us n0 = Ok n -> step n u = Ok n' -> estimator wh n = Some e ->
    S (fn_i n) < length (e_w e) ->
    (wh = Danse \/ wh = Local \/ u_skip u = false \/ u_bypass u = true) ->
    exists e', estimator wh n' = Some e' /\ length (e_w e') = length (e_w e) /\
      (forall j, j <= fn_i n -> nth_error (e_w e') j = nth_error (e_w e) j) /\
      (updated wh n n' -> nth_error (e_w e') (S (fn_i n)) = Some (solve (e_dim e) (e_ryy e') (e_rnn e'))) /\
      (~ updated wh n n' -> nth_error (e_w e') (S (fn_i n)) = nth_error (e_w e) (fn_i n)).
  Proof.
    intros Hf Hr Hst He Hlen Hc. destruct (step_est _ _ _ _ _ Hst He) as [e' [He' Ho]]. exists e'. split; [exact He'|].
    destruct (mid_rest wh n u e) as (Ew & Eu & Ed).
    destruct (outcome_fields _ _ _ _ _ Ho) as (_ & _ & Es & _ & Hl & Hlo & _). rewrite Ew in Hl, Hlo.
    split; [exact Hl|]. split; [exact Hlo|].
    assert (HU : updated wh n n' <-> e_ups e' = S (e_ups e)).
    { split; [intros (a & b & A & B & C); assert (a = e) by congruence; assert (b = e') by congruence; subst; exact C|].
      intros H. exists e, e'. auto. }
    destruct Ho as [H1 H2 H3 H4 H5 H6 H7|w H1 H2 H3 H4|H1 H2].
    - split; [|intros Hn; exfalso; apply Hn, HU; rewrite H7; cbn [e_ups]; rewrite Eu; reflexivity]. intros _. rewrite H7. cbn [e_w e_ryy e_rnn].
      rewrite upd_nth_same by exact H6. rewrite Ed. reflexivity.
    - split; [intros Hu; apply HU in Hu; rewrite H4 in Hu; cbn [e_ups] in Hu; lia|]. intros _. rewrite H4. cbn [e_w].
      rewrite upd_nth_same by exact H3. rewrite <- H2, Ew. reflexivity.
    - split; [intros Hu; apply HU in Hu; rewrite H1 in Hu; lia|]. intros _. rewrite H1, Ew.
      destruct (run_untouched us n0 n wh e Hf Hr He) as [w0 [U1 U2]].
      assert (Hn : e_start e = false \/ f_bypass_all p = true).
      { destruct H2 as [H2|[H2|H2]]; [right; exact H2 | left | exfalso; destruct Hc as [Hc|[Hc|[Hc|Hc]]]; subst; destruct H2 as (A & B & [C|C]); congruence].
        destruct (e_start e) eqn:E; [|reflexivity]. rewrite (mid_keeps wh n u e E) in H2. discriminate. }
      specialize (U2 Hn).
      destruct (nth_error (e_w e) (S (fn_i n))) as [w1|] eqn:E1; [|apply nth_error_None in E1; lia].
      destruct (nth_error (e_w e) (fn_i n)) as [w2|] eqn:E2; [|apply nth_error_None in E2; lia].
      rewrite (U2 w1), (U2 w2) by (eapply nth_error_In; eauto). reflexivity.
  Qed.
End Facts.
