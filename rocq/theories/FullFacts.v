From Verif Require Import Base BaseFacts Sched Buffers Chunk Level Cx Wola Dist SroComp Online OnlineSpec OnlineFacts3 OutFacts2 Filt FiltSpec FiltFacts Scm Ext Full FullSpec.
From Coq Require Import Reals.
Local Open Scope nat_scope.

(** ** Events *)
Lemma combine_fst {A B} (l : list A) (m : list B) : length l <= length m -> map fst (combine l m) = l.
Proof. revert m. induction l as [|x l IH]; intros [|b m] H; cbn in *; try reflexivity; try lia. f_equal. apply IH. lia. Qed.
Lemma marked_fst sched : map fst (marked_events sched) = flat_events sched.
Proof.
  unfold marked_events, flat_events. induction sched as [|i s IH]; [reflexivity|]. cbn [flat_map].
  rewrite map_app, IH. f_equal. apply combine_fst. rewrite app_length, !map_length, repeat_length. lia.
Qed.

(** ** Runs with filters that agree where they are used *)
Section Agree.
  Variables (c : acfg) (y : list (list (list R))).
  Lemma broadcast_agree fs xs fs' xs' t k st :
    (forall i, nth_error (b_i (os_b st)) k = Some i -> ext_at xs k i = ext_at xs' k i) ->
    online_broadcast (with_filters c y fs xs) y t k st = online_broadcast (with_filters c y fs' xs') y t k st.
  Proof.
    intros H. unfold online_broadcast, with_filters.
    cbn [o_p o_nodes o_h o_f o_wola o_comp o_fsd o_every o_nofuse o_ext o_int o_loc o_est].
    repeat (match goal with |- bind ?x _ = bind ?x _ => destruct x eqn:?; [|reflexivity] end; cbn [bind]).
    destruct (existsb _ _); [reflexivity|].
    destruct (get (b_i (os_b st)) k) as [ik|] eqn:E; [|reflexivity]. cbn [bind].
    unfold get in E. destruct (nth_error (b_i (os_b st)) k) as [i|]; [|discriminate]. injection E as ->.
    rewrite (H ik eq_refl). reflexivity.
  Qed.
  Lemma update_agree fs xs fs' xs' t k st :
    (forall i, nth_error (b_i (os_b st)) k = Some i -> int_at fs k (S i) = int_at fs' k (S i) /\ loc_at fs k (S i) = loc_at fs' k (S i)) ->
    online_update (with_filters c y fs xs) y t k st = online_update (with_filters c y fs' xs') y t k st.
  Proof.
    intros H. unfold online_update, estimate, with_filters.
    cbn [o_p o_nodes o_h o_f o_wola o_comp o_fsd o_every o_nofuse o_ext o_int o_loc o_est].
    destruct (get (o_nodes (ac_o c)) k); [|reflexivity]. cbn [bind]. destruct (get y k); [|reflexivity]. cbn [bind].
    destruct (get (b_i (os_b st)) k) as [ik|] eqn:E; [|reflexivity]. cbn [bind].
    unfold get in E. destruct (nth_error (b_i (os_b st)) k) as [i|]; [|discriminate]. injection E as ->.
    destruct (H ik eq_refl) as [-> ->]. reflexivity.
  Qed.
End Agree.

(** ** Iteration indices *)
Lemma broadcast_index c y t k st st' : online_broadcast c y t k st = Ok st' -> b_i (os_b st') = b_i (os_b st).
Proof.
  intros H. unfold online_broadcast in H.
  assert (B : forall f b, broadcast (o_p c) (o_nodes c) f t k (os_b st) = Ok b -> b_i b = b_i (os_b st)).
  { intros f b Hb. unfold broadcast in Hb. destruct (get (o_nodes c) k); [|discriminate]. cbn [bind] in Hb.
    destruct (p_whole (o_p c)).
    - destruct (fill_buffers _ _ _ _); [|discriminate]. injection Hb as <-. reflexivity.
    - destruct (get (b_last (os_b st)) k); [|discriminate]. cbn [bind] in Hb.
      destruct (fill_buffers _ _ _ _); [|discriminate]. injection Hb as <-. reflexivity. }
  repeat (match type of H with
    | bind (if _ then _ else _) _ = _ => idtac
    | bind ?x _ = _ => destruct x eqn:?; [|discriminate]
    end; cbn [bind] in H).
  destruct (existsb _ _); [discriminate|].
  repeat (match type of H with bind ?x _ = _ => destruct x eqn:?; [|discriminate] end; cbn [bind] in H).
  destruct (p_whole (o_p c)) eqn:Ew.
  - repeat (match type of H with bind ?x _ = _ => destruct x eqn:?; [|discriminate] end; cbn [bind] in H).
    injection H as <-. cbn [os_b]. eapply B; eassumption.
  - repeat (match type of H with bind ?x _ = _ => destruct x eqn:?; [|discriminate] end; cbn [bind] in H).
    injection H as <-. cbn [os_b]. eapply B; eassumption.
Qed.
Lemma update_index c y t k st st' : online_update c y t k st = Ok st' ->
  exists i, nth_error (b_i (os_b st)) k = Some i /\ b_i (os_b st') = upd k (S i) (b_i (os_b st)).
Proof.
  intros H. unfold online_update in H.
  destruct (get (o_nodes c) k); [|discriminate]. cbn [bind] in H.
  destruct (get y k); [|discriminate]. cbn [bind] in H.
  destruct (get (b_i (os_b st)) k) as [ik|] eqn:Ei; [|discriminate]. cbn [bind] in H.
  destruct (read_buffers _ _ _ _ _ _) as [b'|] eqn:Eb; [|discriminate]. cbn [bind] in H.
  assert (B : b_i b' = upd k (S ik) (b_i (os_b st))).
  { unfold read_buffers in Eb. rewrite Ei in Eb.
    repeat (match type of Eb with bind ?x _ = _ => destruct x eqn:?; [|discriminate] end; cbn [bind] in Eb).
    injection Eb as <-. reflexivity. }
  unfold get in Ei. destruct (nth_error (b_i (os_b st)) k) as [i|]; [|discriminate]. injection Ei as ->. exists ik. split; [reflexivity|].
  repeat (match type of H with bind ?x _ = _ => destruct x eqn:?; [|discriminate] end; cbn [bind] in H).
  destruct (existsb _ _); [discriminate|].
  repeat (match type of H with bind ?x _ = _ => destruct x eqn:?; [|discriminate] end; cbn [bind] in H).
  destruct (_ && _ && _); [discriminate|].
  repeat (match type of H with bind ?x _ = _ => destruct x eqn:?; [|discriminate] end; cbn [bind] in H).
  injection H as <-. exact B.
Qed.

(** ** Filters of earlier iterations keep their values *)
Section Keep.
  Context {Fr M W : Type} {outer : Fr -> M} {avg : M -> M -> M} {valid : nat -> M -> M -> bool} {solve : nat -> M -> M -> W} {p : fparams}.
  Lemma step_local_none (n n' : fnode M W) u : filt_step outer avg valid solve p n u = Ok n' -> fn_local n = None -> fn_local n' = None.
  Proof.
    intros H Hl. unfold filt_step in H. rewrite Hl in H. cbn [option_map opt_map bind] in H.
    destruct (negb (u_skip u) && negb (u_bypass u)).
    - repeat (match type of H with bind (bind ?x _) _ = _ => destruct x; [|discriminate] end; cbn [bind] in H).
      injection H as <-. reflexivity.
    - destruct (hold _ _); [|discriminate]. cbn [bind] in H. destruct (u_bypass u).
      + repeat (match type of H with bind (bind ?x _) _ = _ => destruct x; [|discriminate] end; cbn [bind] in H).
        injection H as <-. reflexivity.
      + cbn [bind] in H. injection H as <-. reflexivity.
  Qed.
  Lemma step_keeps (n n' : fnode M W) u d : filt_step outer avg valid solve p n u = Ok n' ->
    fn_i n' = S (fn_i n) /\
    (forall j, j <= fn_i n -> nth j (e_w (fn_danse n')) d = nth j (e_w (fn_danse n)) d) /\
    match fn_local n, fn_local n' with
    | Some e, Some e' => forall j, j <= fn_i n -> nth j (e_w e') d = nth j (e_w e) d
    | None, None => True
    | _, _ => False
    end.
  Proof.
    intros H. split; [|split].
    - unfold filt_step in H. cbv zeta in H. match type of H with bind ?x _ = _ => destruct x as [[[[d' l'] c'] s']|]; [|discriminate] end. cbn [bind] in H. injection H as <-. reflexivity.
    - intros j Hj. destruct (step_est _ _ _ _ _ _ _ _ _ _ _ Danse _ H (eq_refl (Some (fn_danse n)))) as [e' [He' Ho]].
      cbn [estimator] in He'. injection He' as <-.
      destruct (outcome_fields _ _ _ valid _ _ _ _ _ _ _ Ho) as (_ & _ & _ & _ & Hl & Hlo & _).
      destruct (mid_rest _ _ _ outer avg valid p Danse n u (fn_danse n)) as (Ew & _). rewrite Ew in Hlo.
      specialize (Hlo j Hj).
      destruct (nth_error (e_w (fn_danse n)) j) as [w|] eqn:E.
      + rewrite (nth_error_nth _ _ _ Hlo), (nth_error_nth _ _ _ E). reflexivity.
      + apply nth_error_None in E. apply nth_error_None in Hlo. rewrite !nth_overflow by assumption. reflexivity.
    - destruct (fn_local n) as [e|] eqn:El; [|now rewrite (step_local_none _ _ _ H El)].
      destruct (step_est _ _ _ _ _ _ _ _ _ _ _ Local _ H El) as [e' [He' Ho]].
      cbn [estimator] in He'. rewrite He'.
      destruct (outcome_fields _ _ _ valid _ _ _ _ _ _ _ Ho) as (_ & _ & _ & _ & Hl & Hlo & _).
      destruct (mid_rest _ _ _ outer avg valid p Local n u e) as (Ew & _). rewrite Ew in Hlo.
      intros j Hj. specialize (Hlo j Hj).
      destruct (nth_error (e_w e) j) as [w|] eqn:E.
      + rewrite (nth_error_nth _ _ _ Hlo), (nth_error_nth _ _ _ E). reflexivity.
      + apply nth_error_None in E. apply nth_error_None in Hlo. rewrite !nth_overflow by assumption. reflexivity.
  Qed.
End Keep.
Lemma ext_keeps p w t x x' : ext_update p w t x = Ok x' ->
  x_i x' = S (x_i x) /\ (forall j, j <= x_i x -> nth j (x_ext x') no_coefs = nth j (x_ext x) no_coefs) /\
  length (x_ext x') = length (x_ext x).
Proof.
  unfold ext_update. intros H. destruct (get (x_ext x) (x_i x)); [|discriminate]. cbn [bind] in H.
  assert (P : forall v l, Batch.put (S (x_i x)) v (x_ext x) = Ok l -> (forall j, j <= x_i x -> nth j l no_coefs = nth j (x_ext x) no_coefs) /\ length l = length (x_ext x)).
  { intros v l Hp. unfold Batch.put in Hp. destruct (Nat.ltb _ _); [|discriminate]. assert (E : l = upd (S (x_i x)) v (x_ext x)) by congruence. rewrite E. split; [|apply upd_length].
    intros j Hj. apply OutFacts2.nth_upd_ne. lia. }
  repeat (match type of H with (if ?b then _ else _) = _ => destruct b end);
    (match type of H with bind ?x _ = _ => destruct x eqn:Ep; [|discriminate] end; cbn [bind] in H; injection H as <-;
     cbn [x_i x_ext]; split; [reflexivity|]; eapply P; eassumption).
Qed.
