(** Complete runs with filter estimation do not fail in synchronous networks. *)
From Verif Require Import Base BaseFacts Sched SchedSpec SchedFacts SchedFacts2 SchedFacts4 SchedFacts5 InstSpec InstFacts Buffers BufFacts SyncFacts SyncFacts2 SyncFacts3 Chunk ChunkSpec Level Cx CxFacts Wola WolaFacts Dist SroComp Online OnlineSpec OutSpec OutFacts OutFacts2 LatestSpec LatestFacts LatestFacts2 LatestFacts3 LatestFacts4 LatestFacts5 CompleteFacts CompleteFacts2 CompleteFacts3 SigGen SigGenFacts Filt FiltSpec FiltFacts Scm Ext Full FullSpec FullFacts FullFacts2 FullFacts3.
From Coq Require Import Reals QArith.
Local Open Scope nat_scope.

(** ** Marks *)
Lemma schedule_marked tsort p nodes ordering_of sched os : is_argsort tsort -> initialize_events tsort p nodes ordering_of = Ok (sched, os) ->
  Forall (fun i => length (in_byp i) = length (in_evs i)) sched.
Proof.
  intros Hs H. unfold initialize_events in H. apply bind_ok in H. destruct H as (pr & _ & H). apply bind_ok in H. destruct H as (out & H & E). injection E as <- _.
  destruct (build_inv _ _ _ _ _ _ _ _ _ _ _ Hs H) as (upI & bcI & fuI & reI & trI & gs & _ & _ & _ & _ & _ & _ & ->). apply attach_lengths.
Qed.
Lemma map_snd_combine {A B} (l : list A) (m : list B) : map snd (combine l m) = firstn (length l) m.
Proof. revert m. induction l as [|a l IH]; intros [|b m]; cbn; try reflexivity. f_equal. apply IH. Qed.
Lemma marked_some sched : Forall (fun i => length (in_byp i) = length (in_evs i)) sched -> forall e, In e (marked_events sched) -> exists b, snd e = Some b.
Proof.
  intros H e He. unfold marked_events in He. apply in_flat_map in He. destruct He as (i & Hi & He). rewrite Forall_forall in H. specialize (H i Hi).
  destruct e as [te b]. apply In_nth_error in He. destruct He as [j Hj].
  assert (Hj' : j < length (map (fun e => (in_t i, e)) (in_evs i))).
  { apply nth_error_lt in Hj. rewrite combine_length in Hj. lia. }
  rewrite map_length in Hj'.
  assert (E : nth_error (map Some (in_byp i) ++ repeat None (length (in_evs i))) j = Some b).
  { apply nth_error_split in Hj. destruct Hj as (l1 & l2 & E & <-).
    assert (E2 : map snd (combine (map (fun e => (in_t i, e)) (in_evs i)) (map Some (in_byp i) ++ repeat None (length (in_evs i)))) =
      firstn (length (in_evs i)) (map Some (in_byp i) ++ repeat None (length (in_evs i)))).
    { rewrite map_snd_combine, map_length. reflexivity. }
    rewrite E, map_app in E2. cbn [map snd] in E2.
    assert (E3 : nth_error (map snd l1 ++ b :: map snd l2) (length l1) = Some b) by (rewrite nth_error_app2; rewrite map_length; [rewrite Nat.sub_diag; reflexivity|lia]).
    rewrite E2 in E3. rewrite <- E3. rewrite <- (firstn_skipn (length (in_evs i)) (map Some (in_byp i) ++ repeat None (length (in_evs i)))) at 1.
    apply nth_error_app1. rewrite firstn_length, app_length, map_length, repeat_length. lia. }
  rewrite nth_error_app1 in E by (rewrite map_length; lia). rewrite nth_error_map in E. destruct (nth_error (in_byp i) j) as [b'|]; [|discriminate]. injection E as <-. exists b'. reflexivity.
Qed.

(** ** Number of updates *)
Lemma updates_bound p nodes per Nt evs k M : sync_events p nodes per Nt evs ->
  (forall i, (p_N p + Z.of_nat i * p_Ns p < Z.of_nat (Nt - 1) / p_Ns p * p_Ns p)%Z -> i < M) -> length (updates_of k evs) <= M.
Proof.
  intros [HUp _ _ _ HD] HM.
  assert (ND : NoDup (map fst (updates_of k evs))).
  { unfold updates_of. clear HUp HM. induction HD as [|[t [k' ty]] evs Hn HD IH]; [constructor|]. cbn [filter].
    destruct (is_update k (t, (k', ty))) eqn:E; [|exact IH]. cbn [map fst]. constructor; [|exact IH].
    intros Hin. apply Hn. apply in_map_iff in Hin. destruct Hin as ([t2 [k2 ty2]] & E2 & Hin). cbn [fst] in E2. subst t2.
    apply filter_In in Hin. destruct Hin as [Hin E2]. unfold is_update in E, E2. cbn [fst snd] in E, E2.
    destruct ty; try discriminate; destruct ty2; try discriminate. apply Nat.eqb_eq in E. apply Nat.eqb_eq in E2. subst. exact Hin. }
  rewrite <- (map_length fst). rewrite <- (seq_length M 0), <- (map_length (fun i => ((p_N p + Z.of_nat i * p_Ns p) * per)%Z)).
  apply NoDup_incl_length; [exact ND|]. intros t Ht. apply in_map_iff in Ht. destruct Ht as ([t2 [k2 ty]] & E & Hin). cbn [fst] in E. subst t2.
  apply filter_In in Hin. destruct Hin as [Hin U]. unfold is_update in U. cbn [fst snd] in U. destruct ty; try discriminate.
  apply HUp in Hin. destruct Hin as [_ (i & -> & Hi)]. apply in_map_iff. exists i. split; [reflexivity|]. apply in_seq. specialize (HM i Hi). lia.
Qed.

(** ** One update does not fail *)
Section Step.
  Context {Fr M W : Type} {outer : Fr -> M} {avg : M -> M -> M} {valid : nat -> M -> M -> bool} {solve : nat -> M -> M -> W} {p : fparams}.
  Definition roomy (slots : nat) (n : fnode M W) : Prop :=
    length (e_w (fn_danse n)) = slots /\ (exists e, fn_local n = Some e /\ length (e_w e) = slots) /\ fn_centr n = None /\ fn_ssbc n = None.
  Lemma set_w_ok i w (e : est M W) : S i < length (e_w e) -> exists e', set_w i w e = Ok e' /\ length (e_w e') = length (e_w e).
  Proof. intros H. unfold set_w. destruct (Nat.ltb_spec (S i) (length (e_w e))); [|lia]. eexists. split; [reflexivity|]. cbn [e_w]. apply (upd_length (S i) w). Qed.
  Lemma hold_ok i (e : est M W) : S i < length (e_w e) -> exists e', hold i e = Ok e' /\ length (e_w e') = length (e_w e).
  Proof. intros H. unfold hold. destruct (nth_error (e_w e) i) as [w|] eqn:E; [|apply nth_error_None in E; lia]. unfold get. rewrite E. cbn [bind]. apply set_w_ok. exact H. Qed.
  Lemma perform_ok i (e : est M W) : S i < length (e_w e) -> exists e', perform solve p i e = Ok e' /\ length (e_w e') = length (e_w e).
  Proof.
    intros H. unfold perform. destruct (_ && _); [|eauto].
    destruct (set_w_ok i (solve (e_dim e) (e_ryy e) (e_rnn e)) e H) as (e' & -> & L). cbn [bind]. eexists. split; [reflexivity|exact L].
  Qed.
  Lemma filt_step_ok slots n u : roomy slots n -> S (fn_i n) < slots ->
    exists n', filt_step outer avg valid solve p n u = Ok n' /\ roomy slots n'.
  Proof.
    intros (Ld & (l & El & Ll) & Ec & Es) Hi. unfold filt_step. cbv zeta. rewrite El, Ec, Es. cbn [option_map opt_map bind].
    set (nyy := if u_vad u then _ else _). set (nnn := if u_vad u then fn_nn n else _).
    set (d := check_covmats _ _ _ _ _ _). set (l2 := check_covmats valid p nyy nnn (u_t u) (scm_update outer avg p nyy nnn (u_vad u) (u_yl u) l)).
    assert (Ed : length (e_w d) = slots) by (rewrite <- Ld; unfold d, check_covmats, scm_update; destruct (f_use1st p); reflexivity).
    assert (El2 : length (e_w l2) = slots) by (rewrite <- Ll; unfold l2, check_covmats, scm_update; destruct (f_use1st p); reflexivity).
    destruct (negb (u_skip u) && negb (u_bypass u)).
    - destruct (perform_ok (fn_i n) d) as (d' & -> & Ld'); [lia|]. destruct (perform_ok (fn_i n) l2) as (l' & -> & Ll'); [lia|]. cbn [bind].
      eexists. split; [reflexivity|]. unfold roomy. cbn. split; [congruence|]. split; [|auto]. exists l'. split; [reflexivity|congruence].
    - destruct (hold_ok (fn_i n) d) as (d' & -> & Ld'); [lia|]. destruct (hold_ok (fn_i n) l2) as (l' & -> & Ll'); [lia|]. cbn [bind].
      destruct (u_bypass u); cbn [bind]; (eexists; split; [reflexivity|]); unfold roomy; cbn; (split; [congruence|]; split; [|auto]; exists l'; split; [reflexivity|congruence]).
  Qed.
End Step.
Lemma ext_update_ok p w t x : S (x_i x) < length (x_ext x) -> exists x', ext_update p w t x = Ok x'.
Proof.
  intros H. unfold ext_update, Batch.put. destruct (nth_error (x_ext x) (x_i x)) as [v|] eqn:E; [|apply nth_error_None in E; lia].
  unfold get. rewrite E. cbn [bind]. 
  destruct (xp_ref_only p), (xp_single p), (xp_off p);
    (match goal with |- context [Nat.ltb ?a ?b] => destruct (Nat.ltb a b) eqn:B end; [eexists; reflexivity|]; apply Nat.ltb_ge in B; exfalso; apply (Nat.lt_irrefl (S (x_i x))); eapply Nat.lt_le_trans; [exact H|exact B]).
Qed.

Section Proceed.
  Variables (c : acfg) (y : list (list (list R))).
  Lemma observe_ok t k byp st fs xs st' vk i v : online_update (with_filters c y fs xs) y t k st = Ok st' ->
    nth_error (ac_vad c) k = Some vk -> nth_error (b_i (os_b st)) k = Some i -> nth_error vk i = Some v -> exists u, observe c y t k byp st = Ok u.
  Proof.
    intros Ho Hv Hi Hvi. unfold online_update in Ho. cbv zeta in Ho.
    change (o_nodes (with_filters c y fs xs)) with (o_nodes (ac_o c)) in Ho. change (o_p (with_filters c y fs xs)) with (o_p (ac_o c)) in Ho.
    change (o_comp (with_filters c y fs xs)) with (o_comp (ac_o c)) in Ho.
    unfold observe. cbv zeta.
    destruct (get (o_nodes (ac_o c)) k) as [nd|]; [|discriminate]. cbn [bind] in *.
    destruct (get y k) as [yk|]; [|discriminate]. cbn [bind] in *.
    destruct (get (b_i (os_b st)) k) as [ik|] eqn:Ei; [|discriminate]. cbn [bind] in *.
    destruct (read_buffers _ _ _ _ _ _) as [b'|]; [|discriminate]. cbn [bind] in *.
    destruct (mapM _ yk) as [fr|]; [|discriminate]. cbn [bind] in *.
    destruct fr as [|r fr']; [discriminate|]. cbn [bind] in Ho.
    destruct (get (b_z b') k) as [zk|]; [|discriminate]. cbn [bind] in *.
    destruct (existsb _ _); [discriminate|].
    destruct (get (os_psf st) k) as [psf|]; [|discriminate]. cbn [bind] in *.
    destruct (o_comp (ac_o c) && Nat.eqb k 0 && Nat.eqb (length (nbrs nd)) 0); [discriminate|].
    destruct (extra_shifts _ _ _) as [xx|]; [|discriminate]. cbn [bind] in *.
    apply get_ok in Ei. rewrite Hi in Ei. injection Ei as <-. unfold get. rewrite Hv. cbn [bind]. rewrite Hvi. cbn [bind]. eexists. reflexivity.
  Qed.

  Lemma update_proceeds slots t k byp a n x i vk v :
    aligned a -> index a k = Some i -> nth_error (a_f a) k = Some n -> nth_error (a_x a) k = Some x ->
    roomy slots n -> length (x_ext x) = slots -> S i < slots -> nth_error (ac_vad c) k = Some vk -> nth_error vk i = Some v ->
    (forall a'', agrees a a'' -> exists s', online_update (replay c y a'') y t k (a_s a) = Ok s') ->
    exists a' n' x', full_update c y t k byp a = Ok a' /\ a_f a' = upd k n' (a_f a) /\ a_x a' = upd k x' (a_x a) /\ roomy slots n' /\ length (x_ext x') = slots.
  Proof.
    intros Ha Hi Hn Hx Hr Lx His Hv Hvi Hnext. destruct (Ha k i Hi) as [A1 A2]. specialize (A1 n Hn). specialize (A2 x Hx).
    destruct (Hnext a) as [s0 E0]; [intros k0 i0 j _ _; auto|].
    destruct (observe_ok t k byp (a_s a) (a_f a) (a_x a) s0 vk i v E0 Hv Hi Hvi) as [u Eu].
    destruct (@filt_step_ok obs tens coefs outer (avg (ac_beta c k)) (ac_valid c) (ac_solve c) (ac_p c) slots n u Hr ltac:(lia)) as (n' & En' & Hr').
    destruct (step_keeps n n' u no_coefs En') as (K1 & K2 & K3).
    destruct (nth_error (e_w (fn_danse n')) (S (fn_i n))) as [w|] eqn:Ew; [|apply nth_error_None in Ew; destruct Hr' as (L' & _); lia].
    destruct (ext_update_ok (ac_x c k) w (Some (IZR t)) x) as [x' Ex']; [lia|]. destruct (ext_keeps _ _ _ _ _ Ex') as (X1 & X2 & X3).
    assert (Lf := nth_error_lt _ _ _ Hn). assert (Lxx := nth_error_lt _ _ _ Hx).
    destruct (Hnext (mkAS (a_s a) (upd k n' (a_f a)) (upd k x' (a_x a)))) as [s' E'].
    { intros k' i' j Hk' Hj. cbn [a_f a_x]. unfold int_at, loc_at, ext_at. destruct (Nat.eq_dec k' k) as [->|Hne].
      - rewrite Hi in Hk'. injection Hk' as <-. rewrite !upd_nth_same, Hn, Hx by assumption.
        split; [symmetry; apply K2; lia|]. split; [|symmetry; apply X2; lia].
        destruct (fn_local n), (fn_local n'); try contradiction; [symmetry; apply K3; lia | reflexivity].
      - rewrite !upd_nth_other by congruence. auto. }
    exists (mkAS s' (upd k n' (a_f a)) (upd k x' (a_x a))), n', x'. unfold full_update, get. rewrite Hn, Hx. cbn [bind]. rewrite Eu. cbn [bind]. rewrite En'. cbn [bind]. rewrite Ew. cbn [bind]. rewrite Ex'. cbn [bind].
    unfold replay in E'. cbn [a_f a_x] in E'. rewrite E'. cbn [bind]. split; [reflexivity|]. cbn. split; [reflexivity|]. split; [reflexivity|]. split; [exact Hr'|congruence].
  Qed.
End Proceed.
