(** Lemmas for C66: output signals of complete runs. *)
From Verif Require Import Base BaseFacts Sched Buffers BufFacts Chunk ChunkSpec ChunkFacts ChunkProps Level Cx CxFacts Wola WolaFacts WolaProps Dist SroComp Online OnlineSpec OutSpec OutFacts.
From Coq Require Import Reals Lra.
Local Open Scope R_scope.
Add Ring cxr_out2 : cx_ring.

Lemma filtered_ext q h w nch ys ys' x : (forall ch m, (ch < nch)%nat -> (m < 2 * q)%nat -> ys ch m = ys' ch m) ->
  filtered q h w nch ys x -> filtered q h w nch ys' x.
Proof.
  intros H F b Hb. rewrite (F b Hb). f_equal. apply csum_ext. intros ch Hch. f_equal. apply dft_ext. intros m Hm. now rewrite H.
Qed.

Lemma get_nth {A} (l : list A) i x d : get l i = Ok x -> nth i l d = x /\ (i < length l)%nat.
Proof. intros H. apply get_ok in H. split; [now apply nth_error_nth|]. apply nth_error_Some. congruence. Qed.

Lemma mapM_nth_some {A B} (f : A -> res B) l ys i x : mapM f l = Ok ys -> nth_error l i = Some x -> exists y, f x = Ok y /\ nth_error ys i = Some y.
Proof.
  revert ys i. induction l as [|a l IH]; intros ys i H Hi; [destruct i; discriminate|]. cbn in H.
  apply bind_ok in H. destruct H as (b & Hb & H). apply bind_ok in H. destruct H as (bs & Hbs & H). injection H as <-.
  destruct i as [|i]; cbn in Hi |- *; [injection Hi as <-; eauto|]. eapply IH; eauto.
Qed.

Lemma nth_upd_eq {A} k (x d : A) l : (k < length l)%nat -> nth k (upd k x l) d = x.
Proof. intros H. rewrite nth_upd by exact H. now rewrite Nat.eqb_refl. Qed.
Lemma nth_upd_ne {A} k j (x d : A) l : k <> j -> nth j (upd k x l) d = nth j l d.
Proof. revert k j. induction l as [|a l IH]; intros [|k] [|j] H; cbn; try reflexivity; [now contradiction H|]. apply IH. congruence. Qed.

Section Update.
  Variables (c : ocfg) (y : list (list (list R))) (q T k : nat).
  Hypothesis (Hq : (0 < q)%nat) (HN : p_N (o_p c) = Z.of_nat (2 * q)) (HNs : (0 < p_Ns (o_p c))%Z) (Hf : length (o_f c) = (2 * q)%nat).
  Hypothesis (Hwola : o_wola c = true) (Hy : Forall (fun col => length col = T) (nth k y [])).

  (** The frames of the node. *)
  Lemma update_frames t yk nd fr :
    get (o_nodes c) k = Ok nd -> get y k = Ok yk -> (0 <= frame_end c k t <= Z.of_nat T)%Z ->
    mapM (fun col => local_chunk_for_update 0 col t (period nd) (p_whole (o_p c)) (p_N (o_p c)) (p_Ns (o_p c))) yk = Ok fr ->
    length fr = length yk /\
    (forall i r, nth_error fr i = Some r -> snd (fst r) = Z.max (frame_end c k t - Z.of_nat (2 * q)) 0 /\ snd r = frame_end c k t /\
       length (fst (fst r)) = (2 * q)%nat /\
       forall m, (m < 2 * q)%nat -> nth m (fst (fst r)) 0 = frame_of y k (2 * q) (frame_end c k t) i m).
  Proof.
    intros Hnd Hyk He Hfr. split; [now apply mapM_length in Hfr|]. intros i r Hi.
    destruct (get_nth _ _ _ (mkNode 1 [] []) Hnd) as [Nd _]. destruct (get_nth _ _ _ [] Hyk) as [Yk _].
    assert (Li : (i < length yk)%nat). { rewrite <- (mapM_length _ _ _ Hfr). apply nth_error_Some. congruence. }
    destruct (nth_error yk i) as [col|] eqn:Ei; [|apply nth_error_None in Ei; lia].
    destruct (mapM_nth_some _ _ _ _ _ Hfr Ei) as (r' & Hr' & Er'). rewrite Er' in Hi. injection Hi as ->.
    assert (Lc : length col = T). { rewrite Yk, Forall_forall in Hy. apply Hy. now apply nth_error_In in Ei. }
    assert (FE : frame_end c k t = (t / period nd - (if p_whole (o_p c) then p_N (o_p c) - p_Ns (o_p c) else 0))%Z) by (unfold frame_end; now rewrite Nd).
    destruct (C18_update_chunk R 0 col t (period nd) (p_whole (o_p c)) (p_N (o_p c)) (p_Ns (o_p c))) as (ch & E & L & S); [lia|rewrite <- FE; lia|].
    cbv zeta in E, L, S. rewrite <- FE in E, S. rewrite E in Hr'. injection Hr' as <-. cbn [fst snd]. rewrite HN in *. split; [reflexivity|]. split; [reflexivity|].
    split; [lia|]. intros m Hm. specialize (S (Z.of_nat m) ltac:(lia)). rewrite Nat2Z.id in S.
    rewrite (nth_error_nth _ _ 0 S). unfold frame_of. rewrite Yk, (nth_error_nth _ _ [] Ei). reflexivity.
  Qed.

  Lemma existsb_false {A} (f : A -> bool) l : existsb f l = false -> forall x, In x l -> f x = false.
  Proof. intros H x Hx. destruct (f x) eqn:E; [|reflexivity]. assert (existsb f l = true) by (apply existsb_exists; eauto). congruence. Qed.

  Lemma update_adds t st st' :
    (0 <= frame_end c k t <= Z.of_nat T)%Z ->
    length (nth k (os_d st) []) = T -> length (nth k (os_dl st) []) = T ->
    online_update c y t k st = Ok st' ->
    let ik := nth k (b_i (os_b st)) 0%nat in
    let z := nth k (b_z (os_b st')) [] in
    nth k (b_i (os_b st')) 0%nat = S ik /\
    length (nth k (os_d st') []) = T /\ length (nth k (os_dl st') []) = T /\
    (exists x, filtered q (o_h c) (o_loc c k (S ik)) (length (nth k y [])) (frame_of y k (2 * q) (frame_end c k t)) x /\
       forall n, at2 (os_dl st') k n = at2 (os_dl st) k n + placed (2 * q) (frame_end c k t) (fun j => nth j (o_f c) 0 * x j) n) /\
    (o_comp c = false -> exists x,
       filtered q (o_h c) (o_int c k (S ik)) (length (nth k y []) + length z) (frame_with y z k (2 * q) (frame_end c k t)) x /\
       forall n, at2 (os_d st') k n = at2 (os_d st) k n + placed (2 * q) (frame_end c k t) (fun j => nth j (o_f c) 0 * x j) n).
  Proof.
    intros He Ld Ll H. cbv zeta. unfold online_update in H.
    apply bind_ok in H. destruct H as (nd & Hnd & H). apply bind_ok in H. destruct H as (yk & Hyk & H).
    apply bind_ok in H. destruct H as (ik & Hik & H). apply bind_ok in H. destruct H as (b' & Hb' & H).
    apply bind_ok in H. destruct H as (fr & Hfr & H). apply bind_ok in H. destruct H as (be & Hbe & H).
    apply bind_ok in H. destruct H as (zk & Hzk & H). cbv zeta in H.
    destruct (existsb _ (chunk_cols fr ++ zk)) eqn:Hlen; [discriminate|].
    apply bind_ok in H. destruct H as (psf & Hpsf & H).
    destruct (o_comp c && Nat.eqb k 0 && Nat.eqb (length (nbrs nd)) 0)%bool; [discriminate|].
    apply bind_ok in H. destruct H as (xs & Hxs & H). apply bind_ok in H. destruct H as (psf2 & Hpsf2 & H).
    apply bind_ok in H. destruct H as (d & Hd & H). apply bind_ok in H. destruct H as (d' & Hd' & H).
    apply bind_ok in H. destruct H as (dl & Hdl & H). apply bind_ok in H. destruct H as (dl' & Hdl' & H).
    injection H as <-. cbn [os_b os_d os_dl].
    destruct (get_nth _ _ _ 0%nat Hik) as [Ei Li]. destruct (get_nth _ _ _ [] Hd) as [Ed Lk].
    destruct (get_nth _ _ _ [] Hdl) as [El Lkl]. destruct (get_nth _ _ _ [] Hzk) as [Ez _]. destruct (get_nth _ _ _ [] Hyk) as [Ey _].
    destruct (update_frames t yk nd fr Hnd Hyk He Hfr) as [Lf Hframes].
    assert (Hb'i : nth k (b_i b') 0%nat = S ik).
    { unfold read_buffers in Hb'. apply bind_ok in Hb'. destruct Hb' as (nk & _ & Hb'). apply bind_ok in Hb'. destruct Hb' as (bk & _ & Hb').
      apply bind_ok in Hb'. destruct Hb' as (zz & _ & Hb'). rewrite Hik in Hb'. cbn [bind] in Hb'. apply bind_ok in Hb'. destruct Hb' as (cols & _ & Hb').
      injection Hb' as <-. cbn [b_i]. apply nth_upd_eq. exact Li. }
    assert (Hbe' : be = (Z.max (frame_end c k t - Z.of_nat (2 * q)) 0, frame_end c k t)).
    { destruct fr as [|r fr]; [discriminate|]. injection Hbe as <-. destruct (Hframes 0%nat r eq_refl) as (-> & -> & _). reflexivity. }
    rewrite Hbe' in Hd', Hdl'. cbn [fst snd] in Hd', Hdl'. rewrite Ei, Ez, Ed, El in *.
    assert (LC : length (chunk_cols fr) = length yk) by (unfold chunk_cols; rewrite map_length; exact Lf).
    assert (HC : forall ch m, (ch < length yk)%nat -> (m < 2 * q)%nat -> nth m (nth ch (chunk_cols fr) []) 0 = frame_of y k (2 * q) (frame_end c k t) ch m).
    { intros ch m Hch Hm. destruct (nth_error fr ch) as [r|] eqn:Er; [|apply nth_error_None in Er; lia].
      destruct (Hframes ch r Er) as (_ & _ & _ & F). rewrite <- (F m Hm). f_equal. unfold chunk_cols.
      apply nth_error_nth. rewrite nth_error_map, Er. reflexivity. }
    unfold estimate in Hd', Hdl'. rewrite Hwola in Hd', Hdl'. cbv zeta in Hd', Hdl'.
    destruct (negb (Nat.eqb (length (o_loc c k (S ik))) (length yk))) eqn:E1; [discriminate|].
    destruct (negb (Nat.eqb (length (o_int c k (S ik))) (length (chunk_cols fr ++ zk)))) eqn:E2; [discriminate|].
    apply negb_false_iff in E1, E2. apply Nat.eqb_eq in E1, E2. rewrite HN, Nat2Z.id in Hd', Hdl'.
    split; [exact Hb'i|]. unfold at2. rewrite !nth_upd_eq by assumption. rewrite Ey.
    destruct (wola_estimate_ok q (Z.to_nat (p_Ns (o_p c))) (o_f c) (o_h c) (o_loc c k (S ik)) (firstn (length yk) (chunk_cols fr ++ zk)) (frame_end c k t) dl dl') as (x & Fx & Lx & Nx);
      [exact Hq|lia|exact Hf|lia|rewrite firstn_length, app_length; lia|rewrite <- spectra_firstn; exact Hdl'|].
    rewrite firstn_length, app_length in Fx. replace (Nat.min (length yk) (length (chunk_cols fr) + length zk)) with (length yk) in Fx by lia.
    assert (GL : length d' = T /\ (o_comp c = false -> exists x0,
        filtered q (o_h c) (o_int c k (S ik)) (length yk + length zk) (frame_with y zk k (2 * q) (frame_end c k t)) x0 /\
        forall n, nth n d' 0 = nth n (nth k (os_d st) []) 0 + placed (2 * q) (frame_end c k t) (fun j => nth j (o_f c) 0 * x0 j) n)).
    { rewrite Ed. split.
      - unfold wola_estimate in Hd'. apply bind_ok in Hd'. destruct Hd' as (tt & _ & Hd'). apply bind_ok in Hd'. destruct Hd' as (a & Ha & Hd').
        injection Hd' as <-.
        assert (LA : length a = length (py_slice (Z.max (frame_end c k t - Z.of_nat (2 * q)) 0) (frame_end c k t) d)).
        { unfold fit in Ha. match type of Ha with (if Nat.eqb ?u ?v then _ else _) = _ => destruct (Nat.eqb_spec u v) as [X|X] end; [injection Ha as <-; exact X|].
          match type of Ha with (if ?u then _ else _) = _ => destruct u end; [|discriminate]. injection Ha as <-. apply repeat_length. }
        assert (LP : Z.of_nat (length (py_slice (Z.max (frame_end c k t - Z.of_nat (2 * q)) 0) (frame_end c k t) d)) = (frame_end c k t - Z.max (frame_end c k t - Z.of_nat (2 * q)) 0)%Z).
        { unfold py_slice. rewrite !py_bound_in by lia. rewrite slice_length by lia. lia. }
        destruct (splice_add (Z.max (frame_end c k t - Z.of_nat (2 * q)) 0) (frame_end c k t) a d) as [L _]; [lia|lia|lia|]. exact (eq_trans L Ld).
      - intros Hc. rewrite Hc in Hd'.
        destruct (wola_estimate_ok q (Z.to_nat (p_Ns (o_p c))) (o_f c) (o_h c) (o_int c k (S ik)) (chunk_cols fr ++ zk) (frame_end c k t) d d') as (x0 & Fx0 & Lx0 & Nx0);
          [exact Hq|lia|exact Hf|lia|exact E2|exact Hd'|].
        exists x0. split; [|exact Nx0]. rewrite app_length, LC in Fx0. revert Fx0. apply filtered_ext. intros ch m Hch Hm. unfold frame_with. rewrite Ey.
        destruct (Nat.ltb_spec ch (length yk)) as [Hlt|Hge].
        + rewrite app_nth1 by lia. now apply HC.
        + rewrite app_nth2 by lia. now rewrite LC. }
    split; [exact (proj1 GL)|]. split; [lia|]. split; [|exact (proj2 GL)].
    exists x. rewrite El. split; [|exact Nx]. revert Fx. apply filtered_ext. intros ch m Hch Hm.
    rewrite <- (HC ch m Hch Hm). do 2 f_equal.
    rewrite firstn_app, LC, Nat.sub_diag, firstn_O, app_nil_r. apply firstn_all2. lia.
  Qed.
End Update.

  Lemma updates_app k evs evs' : updates_of k (evs ++ evs') = updates_of k evs ++ updates_of k evs'.
  Proof. apply filter_app. Qed.

  Lemma sum_updates_snoc k evs te v :
    sum_updates k (evs ++ [te]) v = sum_updates k evs v + (if is_update k te then v (length evs) (fst te) else 0).
  Proof.
    unfold sum_updates. rewrite app_length. cbn [length]. replace (length evs + 1)%nat with (S (length evs)) by lia. cbn [sumR]. f_equal.
    - apply sumR_ext. intros i Hi. now rewrite nth_error_app1.
    - rewrite nth_error_app2, Nat.sub_diag by lia. reflexivity.
  Qed.

(** Runs: an output to which every update of node [k] adds a placed frame. *)
Section Run.
  Variables (c : ocfg) (y : list (list (list R))) (q T k : nat) (st0 : ostate R).
  Variable out : ostate R -> list (list R).
  Variable Fil : Z -> ostate R -> nat -> (nat -> R) -> Prop.
  Let adds t d' d x := forall n, at2 d' k n = at2 d k n + placed (2 * q) (frame_end c k t) (fun j => nth j (o_f c) 0 * x j) n.
  Let Good (st : ostate R) := length (nth k (os_d st) []) = T /\ length (nth k (os_dl st) []) = T.
  Hypothesis step_up : forall t st st', (0 <= frame_end c k t <= Z.of_nat T)%Z -> Good st -> online_update c y t k st = Ok st' ->
    Good st' /\ nth k (b_i (os_b st')) 0%nat = S (nth k (b_i (os_b st)) 0%nat) /\
    exists x, Fil t st' (S (nth k (b_i (os_b st)) 0%nat)) x /\ adds t (out st') (out st) x.
  Hypothesis step_other : forall te st st', is_update k te = false -> online_event c y st te = Ok st' ->
    nth k (out st') [] = nth k (out st) [] /\ nth k (os_d st') [] = nth k (os_d st) [] /\
    nth k (os_dl st') [] = nth k (os_dl st) [] /\ nth k (b_i (os_b st')) 0%nat = nth k (b_i (os_b st)) 0%nat.

  Lemma run_out evs : forall r, Good st0 -> nth k (b_i (os_b st0)) 0%nat = 0%nat ->
    Forall (fun te => is_update k te = true -> (0 <= frame_end c k (fst te) <= Z.of_nat T)%Z) evs ->
    foldM (online_event c y) evs st0 = Ok r ->
    Good r /\ nth k (b_i (os_b r)) 0%nat = length (updates_of k evs) /\
    exists x : nat -> nat -> R,
      (forall m te s, nth_error evs m = Some te -> is_update k te = true -> foldM (online_event c y) (firstn (S m) evs) st0 = Ok s ->
         Fil (fst te) s (length (updates_of k (firstn (S m) evs))) (x m)) /\
      forall n, at2 (out r) k n = at2 (out st0) k n +
        sum_updates k evs (fun m t => placed (2 * q) (frame_end c k t) (fun j => nth j (o_f c) 0 * x m j) n).
  Proof.
    induction evs as [|te evs IH] using rev_ind; intros r G0 I0 HF H.
    - injection H as <-. split; [exact G0|]. split; [exact I0|]. exists (fun _ _ => 0). split; [intros [|m]; discriminate|].
      intros n. unfold sum_updates. cbn. lra.
    - rewrite foldM_app in H. apply bind_ok in H. destruct H as (st & Hst & H). cbn [foldM] in H. apply bind_ok in H. destruct H as (r' & Hr & H). injection H as ->.
      apply Forall_app in HF. destruct HF as [HF HT]. destruct (IH st G0 I0 HF Hst) as (G & I & x & Hx & Sx). clear IH.
      rewrite updates_app, app_length. cbn [updates_of filter].
      assert (PRE : forall m, (m < length evs)%nat -> firstn (S m) (evs ++ [te]) = firstn (S m) evs).
      { intros m Hm. rewrite firstn_app. replace (S m - length evs)%nat with 0%nat by lia. cbn [firstn]. apply app_nil_r. }
      assert (Hr' : foldM (online_event c y) (evs ++ [te]) st0 = Ok r) by (rewrite foldM_app, Hst; cbn [bind foldM]; now rewrite Hr).
      destruct (is_update k te) eqn:U.
      + assert (Hte : exists t, te = (t, (k, Up))).
        { unfold is_update in U. destruct te as [t [k' ty]]. cbn in U. destruct ty; try discriminate. apply Nat.eqb_eq in U. subst. eauto. }
        destruct Hte as [t ->]. unfold online_event in Hr. cbn [fst snd] in Hr.
        assert (Ht : (0 <= frame_end c k t <= Z.of_nat T)%Z) by (inversion HT as [|? ? HH _]; subst; exact (HH U)).
        destruct (step_up t st r Ht G Hr) as (G' & I' & xn & Fn & An).
        split; [exact G'|]. split; [rewrite I', I; cbn [length]; lia|].
        exists (fun m => if Nat.eqb m (length evs) then xn else x m). split.
        * intros m te' s Hm Hu Hs. destruct (lt_dec m (length evs)) as [Hlt|Hge].
          -- destruct (Nat.eqb_spec m (length evs)); [lia|]. rewrite PRE in Hs |- * by exact Hlt.
             rewrite nth_error_app1 in Hm by exact Hlt. exact (Hx m te' s Hm Hu Hs).
          -- assert (Em : m = length evs).
             { assert (m < length (evs ++ [(t, (k, Up))]))%nat by (apply nth_error_Some; congruence). rewrite app_length in *. cbn [length] in *. lia. }
             subst m. rewrite Nat.eqb_refl. rewrite nth_error_app2, Nat.sub_diag in Hm by lia. injection Hm as <-. cbn [fst].
             rewrite firstn_all2 in Hs |- * by (rewrite app_length; cbn [length]; lia). rewrite Hr' in Hs. injection Hs as <-.
             rewrite updates_app, app_length. unfold updates_of at 2. cbn [filter]. rewrite U. cbn [length].
             replace (length (updates_of k evs) + 1)%nat with (S (nth k (b_i (os_b st)) 0%nat)) by lia. exact Fn.
        * intros n. rewrite An, Sx, sum_updates_snoc, U. cbn [fst]. rewrite Nat.eqb_refl.
          assert (ES : sum_updates k evs (fun m t => placed (2 * q) (frame_end c k t) (fun j => nth j (o_f c) 0 * x m j) n) =
            sum_updates k evs (fun m t0 => placed (2 * q) (frame_end c k t0) (fun j => nth j (o_f c) 0 * (if Nat.eqb m (length evs) then xn else x m) j) n)).
          { unfold sum_updates. apply sumR_ext. intros i Hi. destruct (nth_error evs i) as [t0|]; [|reflexivity]. destruct (is_update k t0); [|reflexivity].
            destruct (Nat.eqb_spec i (length evs)); [lia|reflexivity]. }
          rewrite ES. lra.
      + destruct (step_other te st r U Hr) as (O1 & O2 & O3 & O4).
        split; [unfold Good in *; rewrite O2, O3; exact G|]. split; [rewrite O4, I; cbn [length]; lia|].
        exists x. split.
        * intros m te' s Hm Hu Hs. destruct (lt_dec m (length evs)) as [Hlt|Hge].
          -- rewrite PRE in Hs |- * by exact Hlt. rewrite nth_error_app1 in Hm by exact Hlt. exact (Hx m te' s Hm Hu Hs).
          -- assert (Em : m = length evs).
             { assert (m < length (evs ++ [te]))%nat by (apply nth_error_Some; congruence). rewrite app_length in *. cbn [length] in *. lia. }
             subst m. rewrite nth_error_app2, Nat.sub_diag in Hm by lia. injection Hm as <-. congruence.
        * intros n. rewrite sum_updates_snoc, U, Rplus_0_r, <- Sx. unfold at2. now rewrite O1.
  Qed.
End Run.

(** Events that are not updates of node [k]. *)
Lemma other_event c y k te st st' : is_update k te = false -> online_event c y st te = Ok st' ->
  nth k (os_d st') [] = nth k (os_d st) [] /\ nth k (os_dl st') [] = nth k (os_dl st) [] /\ nth k (b_i (os_b st')) 0%nat = nth k (b_i (os_b st)) 0%nat.
Proof.
  destruct te as [t [k' ty]]. intros U H. unfold online_event in H. cbn [fst snd] in H. destruct ty; try discriminate H.
  - unfold online_broadcast in H.
    apply bind_ok in H. destruct H as (nd & Hnd & H). apply bind_ok in H. destruct H as (yk & Hyk & H). apply bind_ok in H. destruct H as (fr & Hfr & H).
    cbv zeta in H. destruct (existsb _ _); [discriminate|]. apply bind_ok in H. destruct H as (ik & Hik & H).
    assert (B : forall cmp b, broadcast (o_p c) (o_nodes c) cmp t k' (os_b st) = Ok b -> b_i b = b_i (os_b st)).
    { intros cmp b Hb. unfold broadcast in Hb. apply bind_ok in Hb. destruct Hb as (nd' & _ & Hb). destruct (p_whole (o_p c)).
      - apply bind_ok in Hb. destruct Hb as (bf & _ & Hb). now injection Hb as <-.
      - apply bind_ok in Hb. destruct Hb as (la & _ & Hb). apply bind_ok in Hb. destruct Hb as (bf & _ & Hb). now injection Hb as <-. }
    destruct (p_whole (o_p c)).
    + apply bind_ok in H. destruct H as (prev & _ & H). apply bind_ok in H. destruct H as (z & _ & H). apply bind_ok in H. destruct H as (b & Hb & H).
      injection H as <-. cbn [os_d os_dl os_b]. now rewrite (B _ _ Hb).
    + apply bind_ok in H. destruct H as (lup & _ & H). apply bind_ok in H. destruct H as (wir & _ & H). apply bind_ok in H. destruct H as (wir' & _ & H).
      apply bind_ok in H. destruct H as (lst & _ & H). apply bind_ok in H. destruct H as (z & _ & H). apply bind_ok in H. destruct H as (b & Hb & H).
      injection H as <-. cbn [os_d os_dl os_b]. now rewrite (B _ _ Hb).
  - unfold is_update in U. cbn in U. apply Nat.eqb_neq in U. unfold online_update in H.
    apply bind_ok in H. destruct H as (nd & Hnd & H). apply bind_ok in H. destruct H as (yk & Hyk & H).
    apply bind_ok in H. destruct H as (ik & Hik & H). apply bind_ok in H. destruct H as (b' & Hb' & H).
    apply bind_ok in H. destruct H as (fr & Hfr & H). apply bind_ok in H. destruct H as (be & Hbe & H).
    apply bind_ok in H. destruct H as (zk & Hzk & H). cbv zeta in H. destruct (existsb _ _); [discriminate|].
    apply bind_ok in H. destruct H as (psf & Hpsf & H). destruct (_ && _)%bool; [discriminate|].
    apply bind_ok in H. destruct H as (xs & Hxs & H). apply bind_ok in H. destruct H as (psf2 & Hpsf2 & H).
    apply bind_ok in H. destruct H as (d & Hd & H). apply bind_ok in H. destruct H as (d' & Hd' & H).
    apply bind_ok in H. destruct H as (dl & Hdl & H). apply bind_ok in H. destruct H as (dl' & Hdl' & H).
    injection H as <-. cbn [os_b os_d os_dl]. rewrite !nth_upd_ne by exact U. split; [reflexivity|]. split; [reflexivity|].
    unfold read_buffers in Hb'. apply bind_ok in Hb'. destruct Hb' as (nk & _ & Hb'). apply bind_ok in Hb'. destruct Hb' as (bk & _ & Hb').
    apply bind_ok in Hb'. destruct Hb' as (zz & _ & Hb'). apply bind_ok in Hb'. destruct Hb' as (i2 & _ & Hb'). apply bind_ok in Hb'. destruct Hb' as (cols & _ & Hb').
    injection Hb' as <-. cbn [b_i]. now apply nth_upd_ne.
Qed.
