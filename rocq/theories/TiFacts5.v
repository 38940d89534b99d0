(** Complete runs of topology-independent DANSE: the nodes' own computations. *)
From Verif Require Import Base BaseFacts Sched SchedSpec Buffers BufFacts Chunk ChunkSpec ChunkFacts ChunkProps Level Cx CxFacts Wola WolaFacts Dist Online OutFacts OutFacts2 CompleteFacts Filt Scm Ext Full FullFacts FullFacts2 FullFacts4 Batch InNet TiRun TiSpec TiFacts2.
From Verif Require BatchSigFacts4.
From Coq Require Import Reals.
Local Open Scope nat_scope.

Lemma zero_bin_false nb ch w : zero_bin nb ch w = false <-> never_zero nb ch w.
Proof.
  unfold zero_bin, never_zero. split.
  - intros H f Hf E. assert (X : existsb (fun f => if Req_EM_T (re (w f ch)) 0 then if Req_EM_T (im (w f ch)) 0 then true else false else false) (seq 0 nb) = true).
    { apply existsb_exists. exists f. split; [apply in_seq; lia|]. rewrite E. change (re czero) with 0%R. change (im czero) with 0%R. destruct (Req_EM_T 0 0); [reflexivity|contradiction]. }
    congruence.
  - intros H. apply not_true_is_false. intros X. apply existsb_exists in X. destruct X as (f & Hf & X). apply in_seq in Hf. apply (H f); [lia|].
    destruct (Req_EM_T (re (w f ch)) 0) as [E1|]; [|discriminate]. destruct (Req_EM_T (im (w f ch)) 0) as [E2|]; [|discriminate].
    destruct (w f ch) as [a b]. cbn [re im] in E1, E2. now subst.
Qed.
Lemma zero_bin_true nb ch w : zero_bin nb ch w = true <-> exists f, f < nb /\ w f ch = czero.
Proof.
  split.
  - intros X. apply existsb_exists in X. destruct X as (f & Hf & X). apply in_seq in Hf. exists f. split; [lia|].
    destruct (Req_EM_T (re (w f ch)) 0) as [E1|]; [|discriminate]. destruct (Req_EM_T (im (w f ch)) 0) as [E2|]; [|discriminate].
    destruct (w f ch) as [a b]. cbn [re im] in E1, E2. now subst.
  - intros (f & Hf & E). destruct (zero_bin nb ch w) eqn:Z; [reflexivity|]. exfalso. apply (proj1 (zero_bin_false nb ch w) Z f Hf E).
Qed.
Lemma div_self nb ch (w : coefs) f : never_zero nb ch w -> f < nb -> div_channel ch (fun f => w f ch) w f ch = cone.
Proof. intros H Hf. unfold div_channel. rewrite Nat.eqb_refl. apply BatchSigFacts4.cinv_r. now apply H. Qed.

Section Steps.
  Context {Fr M W : Type} {outer : Fr -> M} {avg : M -> M -> M} {valid : nat -> M -> M -> bool} {solve : nat -> M -> M -> W} {p : fparams}.
  Lemma Forall_upd {A} (P : A -> Prop) k x l : P x -> Forall P l -> Forall P (upd k x l).
  Proof.
    intros Hx. revert k. induction l as [|a l IH]; intros [|k] H; cbn; try exact H; inversion H; subst; constructor; auto.
  Qed.
  Lemma set_w_P (P : W -> Prop) i w (e e' : est M W) : set_w i w e = Ok e' -> P w -> Forall P (e_w e) -> Forall P (e_w e') /\ e_dim e' = e_dim e /\ e_start e' = e_start e.
  Proof. unfold set_w. destruct (Nat.ltb _ _); [|discriminate]. intros H Hw HF. injection H as <-. cbn [e_w e_dim e_start]. split; [exact (Forall_upd P (S i) w (e_w e) Hw HF)|auto]. Qed.
  Lemma hold_P (P : W -> Prop) i (e e' : est M W) : hold i e = Ok e' -> Forall P (e_w e) -> Forall P (e_w e') /\ e_dim e' = e_dim e /\ e_start e' = e_start e.
  Proof.
    unfold hold, get. destruct (nth_error (e_w e) i) as [w|] eqn:E; cbn [bind]; [|discriminate]. intros H HF. eapply set_w_P; [exact H| |exact HF].
    rewrite Forall_forall in HF. apply HF. now apply nth_error_In in E.
  Qed.
  Lemma hold_perform i (e e1 : est M W) : hold i e = Ok e1 -> exists e2, perform solve p i e = Ok e2.
  Proof.
    unfold hold, perform, set_w. destruct (get (e_w e) i); cbn [bind]; [|discriminate]. destruct (Nat.ltb _ _); [|discriminate]. intros _. destruct (_ && _); cbn [bind]; eauto.
  Qed.
  Lemma hold_perform_opt i (e e1 : option (est M W)) : opt_map (hold i) e = Ok e1 -> exists e2, opt_map (perform solve p i) e = Ok e2.
  Proof.
    destruct e as [e|]; cbn [opt_map]; [|eauto]. destruct (hold i e) as [e'|] eqn:E; cbn [bind]; [|discriminate]. intros _. destruct (hold_perform _ _ _ E) as (e2 & ->). cbn [bind]. eauto.
  Qed.
  Lemma hold_performc_opt i b (e e1 : option (est M W)) : opt_map (hold i) e = Ok e1 -> exists e2, opt_map (perform_centr solve p i b) e = Ok e2.
  Proof.
    destruct e as [e|]; cbn [opt_map]; [|eauto]. destruct (hold i e) as [e'|] eqn:E; cbn [bind]; [|discriminate]. intros _. destruct (hold_perform _ _ _ E) as (e2 & E2).
    unfold perform_centr. destruct (_ && _); [rewrite E|rewrite E2]; cbn [bind]; eauto.
  Qed.
  Lemma perform_P (P : W -> Prop) i (e e' : est M W) : perform solve p i e = Ok e' -> (forall r1 r2, P (solve (e_dim e) r1 r2)) -> Forall P (e_w e) ->
    Forall P (e_w e') /\ e_dim e' = e_dim e /\ e_start e' = e_start e.
  Proof.
    unfold perform. intros H HP HF. destruct (_ && _); [|injection H as <-; auto].
    destruct (set_w i _ e) as [e1|] eqn:E; cbn [bind] in H; [|discriminate]. injection H as <-. cbn. eapply set_w_P; [exact E|apply HP|exact HF].
  Qed.
  Lemma step_P (P : W -> Prop) n u n' : filt_step outer avg valid solve p n u = Ok n' -> (forall r1 r2, P (solve (e_dim (fn_danse n)) r1 r2)) -> Forall P (e_w (fn_danse n)) ->
    Forall P (e_w (fn_danse n')) /\ e_dim (fn_danse n') = e_dim (fn_danse n).
  Proof.
    intros H HP HF. unfold filt_step in H. cbv zeta in H.
    set (d := check_covmats _ _ _ _ _ _) in H at 1.
    assert (D1 : e_w d = e_w (fn_danse n)) by (unfold d, check_covmats, scm_update; destruct (f_use1st p); reflexivity).
    assert (D2 : e_dim d = e_dim (fn_danse n)) by (unfold d, check_covmats, scm_update; destruct (f_use1st p); reflexivity).
    apply bind_ok in H. destruct H as ((((d' & l') & c') & s') & H & E). injection E as <-. cbn [fn_danse]. rewrite <- D2 in HP |- *. rewrite <- D1 in HF.
    destruct (_ && _).
    - apply bind_ok in H. destruct H as (d1 & H1 & H). apply bind_ok in H. destruct H as (? & _ & H). apply bind_ok in H. destruct H as (? & _ & H). apply bind_ok in H. destruct H as (? & _ & H).
      injection H as <- _ _ _. destruct (perform_P P _ _ _ H1 HP HF) as (A & B & _). auto.
    - apply bind_ok in H. destruct H as (d1 & H1 & H). apply bind_ok in H. destruct H as (? & _ & H).
      assert (d1 = d') as ->. { destruct (u_bypass u); [apply bind_ok in H; destruct H as (? & _ & H); apply bind_ok in H; destruct H as (? & _ & H)|]; now injection H as <- _ _ _. }
      destruct (hold_P P _ _ _ H1 HF) as (A & B & _). auto.
  Qed.
  Lemma step_enabled n u n' : filt_step outer avg valid solve p n u = Ok n' -> f_batch_init p = true -> e_start (fn_danse n') = true.
  Proof.
    intros H HB. unfold filt_step in H. cbv zeta in H.
    set (d := check_covmats _ _ _ _ _ _) in H at 1.
    assert (D1 : e_start d = true) by (unfold d, check_covmats; rewrite HB; reflexivity).
    apply bind_ok in H. destruct H as ((((d' & l') & c') & s') & H & E). injection E as <-. cbn [fn_danse]. rewrite <- D1.
    destruct (_ && _).
    - apply bind_ok in H. destruct H as (d1 & H1 & H). apply bind_ok in H. destruct H as (? & _ & H). apply bind_ok in H. destruct H as (? & _ & H). apply bind_ok in H. destruct H as (? & _ & H).
      injection H as <- _ _ _. destruct (perform_P (fun _ => True) _ _ _ H1) as (A & B & C); auto. apply Forall_forall. auto.
    - apply bind_ok in H. destruct H as (d1 & H1 & H). apply bind_ok in H. destruct H as (? & _ & H).
      assert (d1 = d') as ->. { destruct (u_bypass u); [apply bind_ok in H; destruct H as (? & _ & H); apply bind_ok in H; destruct H as (? & _ & H)|]; now injection H as <- _ _ _. }
      destruct (hold_P (fun _ => True) _ _ _ H1) as (A & B & C); auto. apply Forall_forall. auto.
  Qed.
  (** the filter of the next iteration after a bypass-free step *)
  Lemma step_next n u n' : filt_step outer avg valid solve p n u = Ok n' -> u_skip u = false -> u_bypass u = false ->
    let e := fn_danse n' in
    if negb (f_bypass_all p) && e_start e then nth_error (e_w e) (S (fn_i n)) = Some (solve (e_dim e) (e_ryy e) (e_rnn e))
    else e_w e = e_w (fn_danse n).
  Proof.
    intros H Hs Hb. unfold filt_step in H. cbv zeta in H.
    set (d := check_covmats _ _ _ _ _ _) in H at 1.
    assert (D1 : e_w d = e_w (fn_danse n)) by (unfold d, check_covmats, scm_update; destruct (f_use1st p); reflexivity).
    apply bind_ok in H. destruct H as ((((d' & l') & c') & s') & H & E). injection E as <-. cbn [fn_danse]. rewrite Hs, Hb in H. cbn [negb andb] in H.
    apply bind_ok in H. destruct H as (d1 & H1 & H). apply bind_ok in H. destruct H as (? & _ & H). apply bind_ok in H. destruct H as (? & _ & H). apply bind_ok in H. destruct H as (? & _ & H).
    injection H as <- _ _ _. unfold perform in H1. destruct (negb (f_bypass_all p) && e_start d) eqn:B.
    - unfold set_w in H1. destruct (Nat.ltb_spec (S (fn_i n)) (length (e_w d))) as [L|]; cbn [bind] in H1; [|discriminate]. match type of H1 with Ok ?a = Ok _ => assert (E1 : a = d1) by congruence end. rewrite <- E1. cbn [e_w e_start e_dim e_ryy e_rnn]. cbv zeta. rewrite B.
      now apply upd_nth_same.
    - injection H1 as <-. cbv zeta. now rewrite B.
  Qed.
End Steps.

(** ** What an update computes *)
Lemma update_inv c y t k byp em nd nd' : ti_update c y t k byp em nd = Ok nd' ->
  exists yk u n1 n2 w x, nth_error y k = Some yk /\ u_skip u = false /\ u_bypass u = byp /\
    filt_step outer (avg (ac_beta (tc_a c) k)) (ac_valid (tc_a c)) (ac_solve (tc_a c)) (ac_p (tc_a c)) (tn_f nd) u = Ok n1 /\
    normalise c k t byp (length yk) (fn_i (tn_f nd)) n1 (tn_norm nd) = Ok n2 /\
    nth_error (e_w (fn_danse (fst n2))) (S (fn_i (tn_f nd))) = Some w /\
    ext_update (ac_x (tc_a c) k) w (Some (IZR t)) (tn_x nd) = Ok x /\ tn_f nd' = fst n2 /\ tn_x nd' = x /\ tn_norm nd' = snd n2.
Proof.
  unfold ti_update. intros H. apply bind_ok in H. destruct H as (sn & _ & H). apply bind_ok in H. destruct H as (yk & Hy & H). apply get_ok in Hy.
  apply bind_ok in H. destruct H as (fr & _ & H). apply bind_ok in H. destruct H as (be & _ & H). cbv zeta in H. destruct (existsb _ _); [discriminate|].
  apply bind_ok in H. destruct H as (vk & _ & H). apply bind_ok in H. destruct H as (v & _ & H).
  apply bind_ok in H. destruct H as (n1 & H1 & H). apply bind_ok in H. destruct H as (n2 & H2 & H). apply bind_ok in H. destruct H as (w & Hw & H). apply get_ok in Hw.
  apply bind_ok in H. destruct H as (x & Hx & H). apply bind_ok in H. destruct H as (d & _ & H). apply bind_ok in H. destruct H as (dl & _ & H). injection H as <-.
  exists yk, (mkU t (length (chunk_cols fr ++ [em]), bins (spectra (tc_N c) (tc_Ns c) (o_h (tc_o c)) (chunk_cols fr ++ [em])))
    (length yk, bins (spectra (tc_N c) (tc_Ns c) (o_h (tc_o c)) (chunk_cols fr ++ [em]))) (0%nat, no_coefs) (0%nat, no_coefs) v false byp false false), n1, n2, w, x. cbn [tn_f tn_x tn_norm u_skip u_bypass].
  repeat split; assumption.
Qed.

Lemma update_enabled c y t k byp em nd nd' : ti_update c y t k byp em nd = Ok nd' -> f_batch_init (ac_p (tc_a c)) = true -> e_start (fn_danse (tn_f nd')) = true.
Proof.
  intros H HB. destruct (update_inv _ _ _ _ _ _ _ _ H) as (yk & u & n1 & n2 & w & x & _ & _ & _ & H1 & H2 & _ & _ & -> & _).
  assert (S1 := step_enabled _ _ _ H1 HB). unfold normalise in H2. destruct (_ && _) in H2; [|injection H2 as <-; exact S1].
  apply bind_ok in H2. destruct H2 as (w1 & _ & H2). destruct (zero_bin _ _ _); [discriminate|]. injection H2 as <-. exact S1.
Qed.
(** Node 0 under sequential updating. *)
Lemma normalised c y t em nd nd' : ti_update c y t 0 false em nd = Ok nd' -> p_seq (o_p (tc_o c)) = true -> (tn_norm nd <= t)%Z ->
  exists yk w, nth_error y 0 = Some yk /\ nth_error (e_w (fn_danse (tn_f nd'))) (S (fn_i (tn_f nd))) = Some w /\
    (forall f, f < tc_bins c -> w f (length yk) = cone) /\
    let e := fn_danse (tn_f nd') in
    if negb (f_bypass_all (ac_p (tc_a c))) && e_start e
    then forall f ch, ch <> length yk -> w f ch = ac_solve (tc_a c) (e_dim e) (e_ryy e) (e_rnn e) f ch
    else exists w0, nth_error (e_w (fn_danse (tn_f nd))) (S (fn_i (tn_f nd))) = Some w0 /\ never_zero (tc_bins c) (length yk) w0 /\ forall f ch, ch <> length yk -> w f ch = w0 f ch.
Proof.
  intros H Hs Ht. destruct (update_inv _ _ _ _ _ _ _ _ H) as (yk & u & n1 & n2 & w & x & Hy & Hk1 & Hk2 & H1 & H2 & Hw & _ & -> & _).
  unfold normalise in H2. rewrite Hs in H2. replace (tn_norm nd <=? t)%Z with true in H2 by (symmetry; apply Z.leb_le; exact Ht). cbn [andb negb Nat.eqb] in H2.
  unfold get in H2. destruct (nth_error (e_w (fn_danse n1)) (S (fn_i (tn_f nd)))) as [w1|] eqn:E1; cbn [bind] in H2; [|discriminate].
  destruct (zero_bin (tc_bins c) (length yk) w1) eqn:Z; [discriminate|].
  match type of H2 with Ok ?a = Ok _ => assert (E2 : n2 = a) by congruence end. rewrite E2 in *. clear E2 H2. cbn [fst fn_danse e_w e_start e_dim e_ryy e_rnn] in *.
  rewrite upd_nth_same in Hw by (apply nth_error_Some; congruence). injection Hw as <-. apply zero_bin_false in Z.
  exists yk, (div_channel (length yk) (fun f => w1 f (length yk)) w1). split; [exact Hy|]. split; [apply upd_nth_same; apply nth_error_Some; congruence|].
  split; [intros f Hf; now apply (div_self (tc_bins c))|].
  assert (D : forall f ch, ch <> length yk -> div_channel (length yk) (fun f => w1 f (length yk)) w1 f ch = w1 f ch).
  { intros f ch Hne. unfold div_channel. apply Nat.eqb_neq in Hne. now rewrite Hne. }
  cbv zeta. assert (N := step_next _ _ _ H1 Hk1 Hk2). cbv zeta in N. destruct (_ && _).
  - rewrite E1 in N. injection N as ->. exact D.
  - rewrite N in E1. exists w1. split; [exact E1|]. split; [exact Z|exact D].
Qed.
(** Before the estimator is enabled, with an initial coefficient that is zero. *)
Lemma undefined_before c y t em nd nd' f yk w0 : ti_update c y t 0 true em nd = Ok nd' ->
  p_seq (o_p (tc_o c)) = true -> (tn_norm nd <= t)%Z -> e_start (fn_danse (tn_f nd')) = false -> nth_error y 0 = Some yk ->
  nth_error (e_w (fn_danse (tn_f nd))) (S (fn_i (tn_f nd))) = Some w0 -> f < tc_bins c -> w0 f (length yk) = czero ->
  ti_update c y t 0 false em nd = Err ZeroDivisionError.
Proof.
  intros H Hs Ht Hst Hy Hw Hf Hz. unfold ti_update in *.
  apply bind_ok in H. destruct H as (sn & -> & H). apply bind_ok in H. destruct H as (yk' & Hy' & H). rewrite Hy'. apply get_ok in Hy'. rewrite Hy in Hy'. injection Hy' as <-.
  cbn [bind]. apply bind_ok in H. destruct H as (fr & Efr & H). rewrite Efr. apply bind_ok in H. destruct H as (be & Hbe & H). cbv zeta in H |- *. cbn [bind]. rewrite Hbe. cbn [bind]. destruct (existsb _ _); [discriminate|].
  apply bind_ok in H. destruct H as (vk & -> & H). apply bind_ok in H. destruct H as (v & Hv & H). cbn [bind]. rewrite Hv. cbn [bind].
  apply bind_ok in H. destruct H as (n1 & H1 & H). apply bind_ok in H. destruct H as (n2 & H2 & H). apply bind_ok in H. destruct H as (w & _ & H).
  apply bind_ok in H. destruct H as (x & _ & H). apply bind_ok in H. destruct H as (d & _ & H). apply bind_ok in H. destruct H as (dl & _ & H). injection H as <-. cbn [tn_f] in Hst.
  unfold normalise in H2. rewrite Hs in H2. cbn [andb negb Nat.eqb] in H2. injection H2 as <-. cbn [fst] in Hst.
  unfold filt_step in H1 |- *. cbn [u_vad u_t u_y u_yl u_cvad u_yc u_ys u_skip u_bypass u_skipc] in H1 |- *. cbv zeta in H1 |- *. cbn [negb andb] in H1 |- *.
  set (D := check_covmats _ _ _ _ _ (scm_update _ _ _ _ _ _ _ (fn_danse (tn_f nd)))) in H1 |- *.
  apply bind_ok in H1. destruct H1 as ((((d' & l') & c') & s') & H1 & E). injection E as <-. cbn [fn_danse] in Hst.
  apply bind_ok in H1. destruct H1 as (d1 & Hd & H1). apply bind_ok in H1. destruct H1 as (l1 & Hl & H1). apply bind_ok in H1. destruct H1 as (c1 & Hc & H1). apply bind_ok in H1. destruct H1 as (s1 & Hs1 & H1). injection H1 as <- _ _ _.
  assert (SD : e_start D = false). { destruct (@hold_P tens coefs (fun _ => True) _ _ _ Hd) as (_ & _ & <-); [|exact Hst]. apply Forall_forall. auto. }
  assert (WD : e_w D = e_w (fn_danse (tn_f nd))) by (unfold D, check_covmats, scm_update; destruct (f_use1st _); reflexivity).
  destruct (hold_perform_opt (solve := ac_solve (tc_a c)) (p := ac_p (tc_a c)) _ _ _ Hl) as (l2 & El2).
  destruct (hold_performc_opt (solve := ac_solve (tc_a c)) (p := ac_p (tc_a c)) _ false _ _ Hc) as (c2 & Ec2).
  destruct (hold_perform_opt (solve := ac_solve (tc_a c)) (p := ac_p (tc_a c)) _ _ _ Hs1) as (s2 & Es2).
  rewrite El2, Ec2, Es2. unfold perform. rewrite SD, andb_false_r. cbn [bind].
  unfold normalise. rewrite Hs. replace (tn_norm nd <=? t)%Z with true by (symmetry; apply Z.leb_le; exact Ht). cbn [andb negb Nat.eqb fn_danse]. unfold get. rewrite WD, Hw. cbn [bind].
  rewrite (proj2 (zero_bin_true (tc_bins c) (length yk) w0)) by (exists f; auto). reflexivity.
Qed.

(** Relaxed external filters. *)
Lemma relaxed_fails c y t t' k byp em nd nd' yk buf f old :
  p_whole (o_p (tc_o c)) = true -> (0 < p_N (o_p (tc_o c)))%Z ->
  ti_update c y t k byp em nd = Ok nd' -> e_start (fn_danse (tn_f nd')) = true ->
  xp_ref_only (ac_x (tc_a c) k) = false -> xp_single (ac_x (tc_a c) k) = false -> xp_off (ac_x (tc_a c) k) = false ->
  nth_error y k = Some yk -> nth_error (x_ext (tn_x nd)) (x_i (tn_x nd)) = Some old ->
  f < tc_bins c -> old f (length yk) = czero -> x_target (tn_x nd) f (length yk) = czero ->
  (forall sn col, nth_error (o_nodes (tc_o c)) k = Some sn -> In col yk -> (0 <= t' / period sn <= Z.of_nat (length col))%Z) ->
  ti_fusion c y t' k buf nd' = Err ZeroDivisionError.
Proof.
  intros Hwh HN H Hst X1 X2 X3 Hy Hold Hf Z1 Z2 HS.
  destruct (update_inv _ _ _ _ _ _ _ _ H) as (yk' & u & n1 & n2 & w & x & Hy' & _ & _ & _ & _ & _ & Hx & _ & Ex & _). rewrite Hy in Hy'. injection Hy' as <-.
  unfold ext_update, get in Hx. rewrite Hold, X1, X2, X3 in Hx. cbn [bind] in Hx.
  destruct (put (S (x_i (tn_x nd))) (lin (xp_beta (ac_x (tc_a c) k)) old (1 - xp_beta (ac_x (tc_a c) k)) (x_target (tn_x nd))) (x_ext (tn_x nd))) as [l|] eqn:El; cbn [bind] in Hx; [|discriminate].
  assert (Sn : exists sn, nth_error (o_nodes (tc_o c)) k = Some sn).
  { unfold ti_update in H. apply bind_ok in H. destruct H as (sn & H & _). apply get_ok in H. eauto. }
  destruct Sn as (sn & Sn). unfold ti_fusion, get at 1 2. rewrite Sn, Hy. cbn [bind].
  destruct (mapM_all (fun col => local_chunk_for_broadcast 0%R col t' (period sn) (p_N (o_p (tc_o c)))) (fun r => Z.of_nat (length (fst (fst r))) = p_N (o_p (tc_o c))) yk) as (fr & Efr & Pfr).
  { intros col Hcol. destruct (C18_broadcast_chunk R 0%R col t' (period sn) (p_N (o_p (tc_o c)))) as (ch & E & L & _); [lia|now apply HS|]. eexists. split; [exact E|exact L]. }
  rewrite Efr. cbn [bind].
  assert (EX : existsb (fun col => (Z.of_nat (length col) <? p_N (o_p (tc_o c)))%Z) (chunk_cols fr) = false).
  { apply not_true_is_false. intros X. apply existsb_exists in X. destruct X as (col & Hcol & X). unfold chunk_cols in Hcol. apply in_map_iff in Hcol. destruct Hcol as (r & <- & Hr).
    rewrite Forall_forall in Pfr. specialize (Pfr r Hr). cbv beta in Pfr. lia. }
  cbv zeta. rewrite EX, Hwh, Hst.
  assert (G : nth_error (x_ext (tn_x nd')) (x_i (tn_x nd')) = Some (lin (xp_beta (ac_x (tc_a c) k)) old (1 - xp_beta (ac_x (tc_a c) k)) (x_target (tn_x nd)))).
  { rewrite Ex. unfold put in El. destruct (Nat.ltb_spec (S (x_i (tn_x nd))) (length (x_ext (tn_x nd)))) as [L|]; [|discriminate].
    match type of El with Ok ?a = _ => assert (E1 : a = l) by congruence end.
    match type of Hx with Ok ?a = _ => assert (E2 : a = x) by congruence end. rewrite <- E2. cbn [x_ext x_i]. rewrite <- E1. now apply upd_nth_same. }
  unfold get. rewrite G. cbn [bind]. unfold fusion_vector. rewrite (proj2 (zero_bin_true (tc_bins c) (length yk) _)); [reflexivity|].
  exists f. split; [exact Hf|]. unfold lin. rewrite Z1, Z2. apply cx_eq; cbn [re im cadd cmul cr czero]; ring.
Qed.
