From Verif Require Import Base BaseFacts Sched Buffers BufFacts Chunk ChunkSpec Level Cx CxFacts Wola WolaFacts Dist SroComp Online OnlineSpec OnlineFacts3 OutSpec OutFacts OutFacts2 LatestFacts3 CompleteFacts2 Filt FiltSpec FiltFacts Scm Ext Full FullSpec FullFacts FullFacts2.
From Coq Require Import Reals Lra.
Local Open Scope nat_scope.

(** ** Contents of the observations (no compensation of offsets) *)
Section Observe.
  Variables (c : acfg) (y : list (list (list R))) (q T k : nat).
  Let o := ac_o c.
  Hypothesis (Hq : 0 < q) (HN : p_N (o_p o) = Z.of_nat (2 * q)).
  Hypothesis (Hf' : length (o_f o) = 2 * q) (Hwola : o_wola o = true) (Hy : Forall (fun col => length col = T) (nth k y [])).

  Lemma spectra_bin N Ns h cols f ch : f < N / 2 + 1 -> ch < length cols ->
    bins (spectra N Ns h cols) f ch = spectrum N Ns h (fun m => nth m (nth ch cols []) 0%R) f.
  Proof.
    intros Hf Hc. unfold bins, spectra, spectrum. rewrite nth_map_seq by exact Hf.
    rewrite (nth_map_lt _ _ ch [] czero) by exact Hc. f_equal. apply dft_ext. intros m _. f_equal. apply Rmult_comm.
  Qed.

  Lemma observe_frames t byp st u fs xs st' : (0 <= frame_end o k t <= Z.of_nat T)%Z -> o_comp o = false ->
    observe c y t k byp st = Ok u -> online_update (with_filters c y fs xs) y t k st = Ok st' ->
    let z := nth k (b_z (os_b st')) [] in
    let nS := length (nth k y []) in
    u_t u = t /\ u_bypass u = byp /\ u_skip u = false /\
    (exists vk i, nth_error (ac_vad c) k = Some vk /\ nth_error (b_i (os_b st)) k = Some i /\ nth_error vk i = Some (u_vad u)) /\
    fst (u_y u) = nS + length z /\ fst (u_yl u) = nS /\
    (forall f ch, f <= q -> ch < nS + length z ->
       snd (u_y u) f ch = spectrum (2 * q) (Z.to_nat (p_Ns (o_p o))) (o_h o) (frame_with y z k (2 * q) (frame_end o k t) ch) f) /\
    (forall f ch, f <= q -> ch < nS ->
       snd (u_yl u) f ch = spectrum (2 * q) (Z.to_nat (p_Ns (o_p o))) (o_h o) (frame_of y k (2 * q) (frame_end o k t) ch) f).
  Proof.
    intros He Hcomp H Ho. cbv zeta. unfold observe in H. cbv zeta in H. fold o in H.
    destruct (get (o_nodes o) k) as [nd|] eqn:End; [|discriminate]. cbn [bind] in H.
    destruct (get y k) as [yk|] eqn:Eyk; [|discriminate]. cbn [bind] in H.
    destruct (get (b_i (os_b st)) k) as [ik|] eqn:Eik; [|discriminate]. cbn [bind] in H.
    destruct (read_buffers _ _ _ _ _ _) as [b'|] eqn:Eb; [|discriminate]. cbn [bind] in H.
    destruct (mapM _ yk) as [fr|] eqn:Efr; [|discriminate]. cbn [bind] in H.
    destruct (get (b_z b') k) as [zk|] eqn:Ez; [|discriminate]. cbn [bind] in H.
    destruct (existsb _ _) eqn:Eex; [discriminate|].
    destruct (get (os_psf st) k) as [psf|] eqn:Epsf; [|discriminate]. cbn [bind] in H. rewrite Hcomp in H. cbn [andb] in H.
    destruct (extra_shifts _ _ _) as [xx|] eqn:Exx; [|discriminate]. cbn [bind] in H.
    destruct (get (ac_vad c) k) as [vk|] eqn:Evk; [|discriminate]. cbn [bind] in H.
    destruct (get vk ik) as [v|] eqn:Ev; [|discriminate]. cbn [bind] in H. injection H as <-.
    cbn [u_t u_bypass u_skip u_vad u_y u_yl fst snd].
    assert (Bz : b_z (os_b st') = b_z b').
    { unfold online_update in Ho. cbv zeta in Ho. change (o_nodes (with_filters c y fs xs)) with (o_nodes o) in Ho. change (o_p (with_filters c y fs xs)) with (o_p o) in Ho.
      rewrite End in Ho. cbn [bind] in Ho. rewrite Eyk in Ho. cbn [bind] in Ho. rewrite Eik in Ho. cbn [bind] in Ho. rewrite Eb in Ho. cbn [bind] in Ho. rewrite Efr in Ho. cbn [bind] in Ho.
      destruct fr as [|r fr']; [discriminate|]. cbn [bind] in Ho. rewrite Ez in Ho. cbn [bind] in Ho. rewrite Eex in Ho.
      rewrite Epsf in Ho. cbn [bind] in Ho. change (o_comp (with_filters c y fs xs)) with (o_comp o) in Ho. rewrite Hcomp in Ho. cbn [andb] in Ho.
      rewrite Exx in Ho. cbn [bind] in Ho.
      repeat (match type of Ho with bind ?x _ = _ => destruct x eqn:?; [|discriminate] end; cbn [bind] in Ho). injection Ho as <-. reflexivity. }
    rewrite Bz. destruct (get_nth _ _ _ [] Ez) as [Ez' _]. rewrite Ez'. destruct (get_nth _ _ _ [] Eyk) as [Eyk' _]. rewrite Eyk'.
    destruct (update_frames o y q T k Hq HN Hf' Hwola Hy t yk nd fr End Eyk He Efr) as [Lfr Ffr].
    assert (Lcols : length (chunk_cols fr ++ zk) = length yk + length zk) by (rewrite app_length; unfold chunk_cols; rewrite map_length; lia).
    assert (Loc : forall ch m, ch < length yk -> m < 2 * q -> nth m (nth ch (chunk_cols fr ++ zk) []) 0%R = frame_of y k (2 * q) (frame_end o k t) ch m).
    { intros ch m Hch Hm. rewrite app_nth1 by (unfold chunk_cols; rewrite map_length; lia). unfold chunk_cols.
      destruct (nth_error fr ch) as [r|] eqn:Er; [|apply nth_error_None in Er; lia].
      destruct (Ffr ch r Er) as (_ & _ & _ & F). rewrite <- (F m Hm). f_equal.
      apply nth_error_nth. rewrite nth_error_map, Er. reflexivity. }
    rewrite HN, Nat2Z.id. assert (Hd : 2 * q / 2 = q) by (rewrite Nat.mul_comm; apply Nat.div_mul; lia).
    split; [reflexivity|]. split; [reflexivity|]. split; [unfold skip_update; clear; induction (snd (last (b_log b') (k, []))); cbn; auto|].
    split; [exists vk, ik; apply get_ok in Evk; apply get_ok in Eik; apply get_ok in Ev; auto|].
    split; [exact Lcols|]. split; [reflexivity|]. split.
    - intros f ch Hf Hch. rewrite spectra_bin by lia. unfold spectrum. f_equal. apply dft_ext. intros m Hm. do 2 f_equal.
      unfold frame_with. rewrite Eyk'. destruct (Nat.ltb_spec ch (length yk)) as [Hlt|Hge]; [apply Loc; assumption|].
      rewrite app_nth2 by (unfold chunk_cols; rewrite map_length; lia). unfold chunk_cols. rewrite map_length, Lfr. reflexivity.
    - intros f ch Hf Hch. rewrite spectra_bin by lia. unfold spectrum. f_equal. apply dft_ext. intros m Hm. do 2 f_equal. apply Loc; assumption.
  Qed.
End Observe.

Lemma combine_snoc {A B} (l : list A) (m : list B) a b : length l = length m -> combine (l ++ [a]) (m ++ [b]) = combine l m ++ [(a, b)].
Proof. revert m. induction l as [|x l IH]; intros [|z m] H; cbn in *; try discriminate; [reflexivity|]. f_equal. apply IH. lia. Qed.

(** ** Filters as functions of the observations *)
Section Project.
  Variables (c : acfg) (y : list (list (list R))) (sched : list instant) (a0 : astate).
  Notation reach := (full_reached c y sched a0).
  Notation obsv := (observations c y sched a0).

  Lemma reach_S m a : reach (S m) = Ok a ->
    (nth_error (marked_events sched) m = None /\ reach m = Ok a) \/
    exists e a1, nth_error (marked_events sched) m = Some e /\ reach m = Ok a1 /\ full_event c y a1 e = Ok a.
  Proof.
    unfold full_reached. intros H. destruct (nth_error (marked_events sched) m) as [e|] eqn:E.
    - right. rewrite firstn_S_nth, E, foldM_app in H. apply bind_ok in H. destruct H as (a1 & H1 & H2). cbn [foldM] in H2.
      apply bind_ok in H2. destruct H2 as (a2 & H2 & H3). injection H3 as ->. exists e, a1. auto.
    - left. split; [reflexivity|]. apply nth_error_None in E. rewrite firstn_all2 in H by lia. rewrite firstn_all2 by lia. exact H.
  Qed.
  Lemma obs_S k m : obsv k (S m) = obsv k m ++
    match nth_error (marked_events sched) m with
    | Some e => if is_update k (fst e) then match reach m, snd e with
        | Ok a, Some byp => match observe c y (fst (fst e)) k byp (a_s a) with Ok u => [u] | Err _ => [] end | _, _ => [] end else []
    | None => [] end.
  Proof. unfold observations. rewrite seq_S, flat_map_app. cbn [flat_map plus]. rewrite app_nil_r. reflexivity. Qed.

  Definition ext_inputs (n : fnode tens coefs) (us : list (uevent obs)) : list (coefs * option R) :=
    map (fun ju => (nth (S (fst ju)) (e_w (fn_danse n)) no_coefs, Some (IZR (u_t (snd ju))))) (combine (seq 0 (length us)) us).
  Lemma ext_inputs_snoc n us u : ext_inputs n (us ++ [u]) = ext_inputs n us ++ [(nth (S (length us)) (e_w (fn_danse n)) no_coefs, Some (IZR (u_t u)))].
  Proof.
    unfold ext_inputs. rewrite app_length. cbn [length]. rewrite Nat.add_1_r, seq_S. rewrite combine_snoc by apply seq_length.
    rewrite map_app. reflexivity.
  Qed.
  Lemma ext_inputs_keep n n' us : (forall j, j <= length us -> nth j (e_w (fn_danse n')) no_coefs = nth j (e_w (fn_danse n)) no_coefs) -> ext_inputs n' us = ext_inputs n us.
  Proof.
    intros H. unfold ext_inputs. apply map_ext_in. intros [j u] Hin. apply in_combine_l in Hin. apply in_seq in Hin. cbn [fst snd]. rewrite H by lia. reflexivity.
  Qed.

  Lemma projects k n0 x0 : nth_error (a_f a0) k = Some n0 -> nth_error (a_x a0) k = Some x0 -> fn_i n0 = 0 -> forall m a, reach m = Ok a ->
    exists n x, nth_error (a_f a) k = Some n /\ nth_error (a_x a) k = Some x /\
      filt_run outer (avg (ac_beta c k)) (ac_valid c) (ac_solve c) (ac_p c) (obsv k m) n0 = Ok n /\ fn_i n = length (obsv k m) /\
      ext_run (ac_x c k) (ext_inputs n (obsv k m)) x0 = Ok x.
  Proof.
    intros Hn Hx Hi m. induction m as [|m IH]; intros a H.
    - unfold full_reached in H. cbn in H. injection H as <-. exists n0, x0. repeat split; auto.
    - rewrite obs_S. destruct (reach_S _ _ H) as [[E H1]|(e & a1 & E & H1 & H2)]; rewrite E.
      + rewrite app_nil_r. apply IH. exact H1.
      + destruct (IH _ H1) as (n & x & Fn & Fx & Fr & Fi & Xr).
        assert (Same : a_f a = a_f a1 -> a_x a = a_x a1 ->
          exists n x, nth_error (a_f a) k = Some n /\ nth_error (a_x a) k = Some x /\
            filt_run outer (avg (ac_beta c k)) (ac_valid c) (ac_solve c) (ac_p c) (obsv k m ++ []) n0 = Ok n /\ fn_i n = length (obsv k m ++ []) /\
            ext_run (ac_x c k) (ext_inputs n (obsv k m ++ [])) x0 = Ok x).
        { intros -> ->. rewrite app_nil_r. exists n, x. auto. }
        destruct e as [[t [k' ty]] byp]. unfold full_event in H2. unfold is_update. cbn [fst snd] in *. destruct ty; try discriminate.
        * destruct (full_broadcast_inv _ _ _ _ _ _ H2) as (Ef & Ea & _). exact (Same Ef Ea).
        * destruct byp as [byp|]; [|discriminate].
          destruct (full_update_inv _ _ _ _ _ _ _ H2) as (n1 & n2 & x1 & x2 & u & w & En & Ex & Eu & Es & Ew & Ee & Ef & Ea & _).
          destruct (Nat.eqb_spec k' k) as [->|Hk].
          -- rewrite H1, Eu. rewrite Fn in En. injection En as <-. rewrite Fx in Ex. injection Ex as <-.
             destruct (step_keeps n n2 u no_coefs Es) as (K1 & K2 & _).
             exists n2, x2. rewrite Ef, Ea, !upd_nth_same by (eapply nth_error_lt; eassumption).
             split; [reflexivity|]. split; [reflexivity|]. split; [|split].
             ++ unfold filt_run in *. rewrite foldM_app, Fr. cbn [bind foldM]. rewrite Es. reflexivity.
             ++ rewrite app_length. cbn [length]. lia.
             ++ rewrite ext_inputs_snoc. unfold ext_run in *. rewrite foldM_app.
                rewrite (ext_inputs_keep n n2) by (intros j Hj; apply K2; lia). rewrite Xr. cbn [bind foldM fst snd].
                rewrite <- Fi, (nth_error_nth _ _ _ Ew).
                assert (Ut : u_t u = t).
                { unfold observe in Eu. cbv zeta in Eu.
                  repeat (match type of Eu with bind ?x _ = _ => destruct x eqn:?; [|discriminate] end; cbn [bind] in Eu).
                  destruct (existsb _ _); [discriminate|].
                  repeat (match type of Eu with bind ?x _ = _ => destruct x eqn:?; [|discriminate] end; cbn [bind] in Eu).
                  destruct (_ && _ && _); [discriminate|].
                  repeat (match type of Eu with bind ?x _ = _ => destruct x eqn:?; [|discriminate] end; cbn [bind] in Eu).
                  injection Eu as <-. reflexivity. }
                rewrite Ut, Ee. reflexivity.
          -- rewrite app_nil_r. exists n, x. rewrite Ef, Ea, !upd_nth_other by congruence. auto.
  Qed.
End Project.
