(** Lemmas for C67: broadcasts of a run. *)
From Verif Require Import Base BaseFacts Sched Buffers BufFacts Chunk ChunkSpec ChunkFacts ChunkProps Cx CxFacts Wola WolaFacts WolaProps Dist Online OnlineSpec OutSpec OutFacts OutFacts2 OutFacts3 DistSpec DistFacts.
From Coq Require Import Reals Lra.
Local Open Scope R_scope.

Definition taps (N : nat) (wir : list (list R)) (ch : nat) (j : Z) : R := nth (Z.to_nat (j + Z.of_nat N)) (nth ch wir []) 0.

Lemma fused_ext y k N v v' e n : (forall ch j, (ch < length (nth k y []))%nat -> (- Z.of_nat N <= j < Z.of_nat N - 1)%Z -> v ch j = v' ch j) ->
  fused_sample y k N v e n = fused_sample y k N v' e n.
Proof.
  intros H. unfold fused_sample. apply sumR_ext. intros ch Hch. apply sumR_ext. intros i Hi. cbv zeta. f_equal. apply H; [exact Hch|lia].
Qed.

Section Broadcast.
  Variables (c : ocfg) (y : list (list (list R))) (N T k : nat).
  Hypothesis (HN : p_N (o_p c) = Z.of_nat N) (HN0 : (0 < N)%nat) (Hwh : p_whole (o_p c) = false).
  Hypothesis (Hy : Forall (fun col => length col = T) (nth k y [])).
  Let nS := length (nth k y []).
  Let nd := nth k (o_nodes c) (mkNode 1 [] []).
  Definition to_send (st : ostate R) (t : Z) : nat :=
    Z.to_nat (if p_efficient (o_p c) then efficient_size (p_L (o_p c)) (stamps (nth k (o_nodes c) (mkNode 1 [] []))) (nth k (b_last (os_b st)) 0%Z) t else p_L (o_p c)).
  Definition is_due (st : ostate R) (t : Z) : bool := (o_every c <=? Z.abs (t - nth k (os_up st) 0%Z))%Z.
  Definition fuses : bool := negb (o_nofuse c && Nat.eqb (length (nth k y [])) 1).

  Lemma broadcast_sends t st st' :
    (0 <= t / period nd <= Z.of_nat T)%Z -> (to_send st t <= 2 * N + 1)%nat -> (k < length (os_zl st))%nat ->
    online_broadcast c y t k st = Ok st' ->
    let wir := nth k (os_wir st') [] in
    let z := nth k (os_zl st') [] in
    (if is_due st t && fuses then dist_fct_approx (o_h c) (o_f c) (Z.to_nat (p_Ns (o_p c))) (o_ext c k (nth k (b_i (os_b st)) 0%nat)) = Ok wir
     else wir = nth k (os_wir st) []) /\
    (nth k (os_up st') 0%Z = if is_due st t then t else nth k (os_up st) 0%Z) /\
    (length wir = nS -> Forall (fun w => length w = (2 * N - 1)%nat) wir ->
       z = map (fun l => fused_sample y k N (taps N wir) (t / period nd) (t / period nd - Z.of_nat (to_send st t) + Z.of_nat l)) (seq 0 (to_send st t))).
  Proof.
    intros He HL HZ H. cbv zeta. unfold online_broadcast in H.
    apply bind_ok in H. destruct H as (nd' & Hnd & H). apply bind_ok in H. destruct H as (yk & Hyk & H). apply bind_ok in H. destruct H as (fr & Hfr & H).
    cbv zeta in H. destruct (existsb _ _) eqn:EX; [discriminate|]. apply bind_ok in H. destruct H as (ik & Hik & H). rewrite Hwh in H.
    apply bind_ok in H. destruct H as (lup & Hlup & H). apply bind_ok in H. destruct H as (wir & Hwir & H). apply bind_ok in H. destruct H as (wir' & Hw' & H).
    apply bind_ok in H. destruct H as (lst & Hlst & H). apply bind_ok in H. destruct H as (z & Hz & H). apply bind_ok in H. destruct H as (b & Hb & H).
    injection H as <-. cbn [os_wir os_zl os_up].
    destruct (get_nth _ _ _ (mkNode 1 [] []) Hnd) as [End _]. destruct (get_nth _ _ _ [] Hyk) as [Ey _]. destruct (get_nth _ _ _ 0%nat Hik) as [Ei _].
    destruct (get_nth _ _ _ 0%Z Hlup) as [Eu Lu]. destruct (get_nth _ _ _ [] Hwir) as [Ew Lw]. destruct (get_nth _ _ _ 0%Z Hlst) as [El _].
    unfold broadcast in Hb. rewrite Hwh in Hb. rewrite !Hnd in Hb. cbn [bind] in Hb. rewrite Hlst in Hb. cbn [bind] in Hb.
    assert (Lz : forall l0, (k < length l0)%nat -> nth k (upd k z l0) [] = z) by (intros; now apply nth_upd_eq).
    subst nd. fold (is_due st t). unfold is_due, fuses. rewrite Ey. rewrite !nth_upd_eq by assumption. rewrite Ei, Eu, Ew.
    set (due := (o_every c <=? Z.abs (t - lup))%Z) in *.
    split; [destruct (due && negb (o_nofuse c && Nat.eqb (length yk) 1))%bool; [exact Hw'|congruence]|].
    split; [destruct due; [now apply nth_upd_eq|exact Eu]|].
    intros LW FW.
    assert (TS : Z.to_nat (if p_efficient (o_p c) then efficient_size (p_L (o_p c)) (stamps nd') lst t else p_L (o_p c)) = to_send st t) by (unfold to_send; now rewrite End, El).
    rewrite TS, HN, Nat2Z.id in Hz. rewrite End in *.
    assert (LF : length fr = length yk) by (now apply mapM_length in Hfr).
    assert (HF : forall i, (i < length yk)%nat -> length (nth i (chunk_cols fr) []) = N /\
               forall m, (m < N)%nat -> nth m (nth i (chunk_cols fr) []) 0 = sample 0 (nth i yk []) (t / period nd' - Z.of_nat N + Z.of_nat m)).
    { intros i Hi. destruct (nth_error yk i) as [col|] eqn:Ec; [|apply nth_error_None in Ec; lia].
      destruct (mapM_nth_some _ _ _ _ _ Hfr Ec) as (r & Hr & Er).
      assert (Lc : length col = T). { rewrite Ey, Forall_forall in Hy. apply Hy. now apply nth_error_In in Ec. }
      destruct (C18_broadcast_chunk R 0 col t (period nd') (p_N (o_p c))) as (ch & E & L & S); [lia|lia|]. rewrite E in Hr. injection Hr as <-.
      assert (EN : nth i (chunk_cols fr) [] = ch) by (unfold chunk_cols; apply nth_error_nth; rewrite nth_error_map, Er; reflexivity).
      rewrite EN, (nth_error_nth _ _ [] Ec). split; [lia|]. intros m Hm. specialize (S (Z.of_nat m) ltac:(lia)). rewrite Nat2Z.id, HN in S.
      exact (nth_error_nth _ _ 0 S). }
    assert (LC : length (chunk_cols fr) = length yk) by (unfold chunk_cols; rewrite map_length; exact LF).
    rewrite C19_compression in Hz; [match type of Hz with Ok ?a = Ok ?b => assert (EZ : a = b) by congruence; rewrite <- EZ end| | |exact FW|].
    - apply map_ext_in. intros l Hl. apply in_seq in Hl. unfold fused_sample. rewrite Ey, LC. apply sumR_ext. intros s Hs.
      rewrite Forall_forall in FW. unfold nS in LW. rewrite Ey in LW. destruct (HF s Hs) as [L1 V1].
      rewrite (conv_known (nth s wir' []) N (t / period nd') (nth s yk []) (nth s (chunk_cols fr) []) l (to_send st t)); [|apply FW, nth_In; lia|exact L1|exact HN0|exact V1].
      apply sumR_ext. intros i Hi. cbv zeta. unfold taps. f_equal. f_equal. lia.
    - unfold nS in LW. rewrite Ey in LW. lia.
    - lia.
    - apply Forall_forall. intros x Hx. apply In_nth with (d := []) in Hx. destruct Hx as (i & Hi & <-). rewrite (proj1 (HF i ltac:(lia))). lia.
  Qed.
End Broadcast.

(** Iteration indices count the updates. *)
Lemma update_index c y t k st st' : online_update c y t k st = Ok st' -> nth k (b_i (os_b st')) 0%nat = S (nth k (b_i (os_b st)) 0%nat).
Proof.
  intros H. unfold online_update in H.
  apply bind_ok in H. destruct H as (nd & Hnd & H). apply bind_ok in H. destruct H as (yk & Hyk & H).
  apply bind_ok in H. destruct H as (ik & Hik & H). apply bind_ok in H. destruct H as (b' & Hb' & H).
  apply bind_ok in H. destruct H as (fr & Hfr & H). apply bind_ok in H. destruct H as (be & Hbe & H).
  apply bind_ok in H. destruct H as (zk & Hzk & H). cbv zeta in H. destruct (existsb _ _); [discriminate|].
  apply bind_ok in H. destruct H as (psf & Hpsf & H). destruct (_ && _)%bool; [discriminate|].
  apply bind_ok in H. destruct H as (xs & Hxs & H). apply bind_ok in H. destruct H as (psf2 & Hpsf2 & H).
  apply bind_ok in H. destruct H as (d & Hd & H). apply bind_ok in H. destruct H as (d' & Hd' & H).
  apply bind_ok in H. destruct H as (dl & Hdl & H). apply bind_ok in H. destruct H as (dl' & Hdl' & H).
  injection H as <-. cbn [os_b]. destruct (get_nth _ _ _ 0%nat Hik) as [Ei Li].
  unfold read_buffers in Hb'. apply bind_ok in Hb'. destruct Hb' as (nk & _ & Hb'). apply bind_ok in Hb'. destruct Hb' as (bk & _ & Hb').
  apply bind_ok in Hb'. destruct Hb' as (zz & _ & Hb'). rewrite Hik in Hb'. cbn [bind] in Hb'. apply bind_ok in Hb'. destruct Hb' as (cols & _ & Hb').
  injection Hb' as <-. cbn [b_i]. rewrite Ei. apply nth_upd_eq. exact Li.
Qed.
Lemma is_update_true k te : is_update k te = true -> te = (fst te, (k, Up)).
Proof. destruct te as [t [k' ty]]. unfold is_update. cbn. destruct ty; try discriminate. intros H. apply Nat.eqb_eq in H. now subst. Qed.
Lemma is_bc_true k te : is_bc k te = true -> te = (fst te, (k, Bc)).
Proof. destruct te as [t [k' ty]]. unfold is_bc. cbn. destruct ty; try discriminate. intros H. apply Nat.eqb_eq in H. now subst. Qed.
Lemma run_index c y k evs : forall st0 r, foldM (online_event c y) evs st0 = Ok r ->
  nth k (b_i (os_b r)) 0%nat = (nth k (b_i (os_b st0)) 0 + length (updates_of k evs))%nat.
Proof.
  induction evs as [|te evs IH] using rev_ind; intros st0 r H; [injection H as <-; cbn; lia|].
  rewrite foldM_app in H. apply bind_ok in H. destruct H as (st & Hst & H). cbn [foldM] in H. apply bind_ok in H. destruct H as (r' & Hr & H). injection H as ->.
  rewrite updates_app, app_length. cbn [updates_of filter]. destruct (is_update k te) eqn:U.
  - rewrite (is_update_true _ _ U) in Hr. rewrite (update_index c y (fst te) k st r Hr), (IH st0 st Hst). cbn [length]. lia.
  - rewrite (proj2 (proj2 (other_event c y k te st r U Hr))), (IH st0 st Hst). cbn [length]. lia.
Qed.

(** Events that are not broadcasts of node [k] leave its broadcast filter alone. *)
Lemma nth_upd_other {A} k j (x d : A) l : k <> j -> nth j (upd k x l) d = nth j l d.
Proof. exact (nth_upd_ne k j x d l). Qed.
Lemma other_bc c y k te st st' : is_bc k te = false -> online_event c y st te = Ok st' ->
  nth k (os_wir st') [] = nth k (os_wir st) [] /\ nth k (os_up st') 0%Z = nth k (os_up st) 0%Z /\ nth k (os_zl st') [] = nth k (os_zl st) [].
Proof.
  destruct te as [t [k' ty]]. intros U H. unfold online_event in H. cbn [fst snd] in H. destruct ty; try discriminate H.
  - unfold is_bc in U. cbn in U. apply Nat.eqb_neq in U. unfold online_broadcast in H.
    apply bind_ok in H. destruct H as (nd & Hnd & H). apply bind_ok in H. destruct H as (yk & Hyk & H). apply bind_ok in H. destruct H as (fr & Hfr & H).
    cbv zeta in H. destruct (existsb _ _); [discriminate|]. apply bind_ok in H. destruct H as (ik & Hik & H).
    destruct (p_whole (o_p c)).
    + apply bind_ok in H. destruct H as (prev & _ & H). apply bind_ok in H. destruct H as (z & _ & H). apply bind_ok in H. destruct H as (b & Hb & H).
      injection H as <-. cbn [os_wir os_up os_zl]. rewrite nth_upd_ne by exact U. auto.
    + apply bind_ok in H. destruct H as (lup & _ & H). apply bind_ok in H. destruct H as (wir & _ & H). apply bind_ok in H. destruct H as (wir' & _ & H).
      apply bind_ok in H. destruct H as (lst & _ & H). apply bind_ok in H. destruct H as (z & _ & H). apply bind_ok in H. destruct H as (b & Hb & H).
      injection H as <-. cbn [os_wir os_up os_zl]. rewrite !nth_upd_ne by exact U. split; [reflexivity|]. split; [|reflexivity].
      destruct (_ <=? _)%Z; [now apply nth_upd_ne|reflexivity].
  - unfold online_update in H.
    apply bind_ok in H. destruct H as (nd & Hnd & H). apply bind_ok in H. destruct H as (yk & Hyk & H).
    apply bind_ok in H. destruct H as (ik & Hik & H). apply bind_ok in H. destruct H as (b' & Hb' & H).
    apply bind_ok in H. destruct H as (fr & Hfr & H). apply bind_ok in H. destruct H as (be & Hbe & H).
    apply bind_ok in H. destruct H as (zk & Hzk & H). cbv zeta in H. destruct (existsb _ _); [discriminate|].
    apply bind_ok in H. destruct H as (psf & Hpsf & H). destruct (_ && _)%bool; [discriminate|].
    apply bind_ok in H. destruct H as (xs & Hxs & H). apply bind_ok in H. destruct H as (psf2 & Hpsf2 & H).
    apply bind_ok in H. destruct H as (d & Hd & H). apply bind_ok in H. destruct H as (d' & Hd' & H).
    apply bind_ok in H. destruct H as (dl & Hdl & H). apply bind_ok in H. destruct H as (dl' & Hdl' & H).
    injection H as <-. cbn [os_wir os_up os_zl]. auto.
Qed.
Lemma upd_len {A} k (x : A) l : length (upd k x l) = length l.
Proof. revert k; induction l as [|a l IH]; intros [|k]; cbn; auto. Qed.
Lemma event_zl c y te st st' : online_event c y st te = Ok st' -> length (os_zl st') = length (os_zl st).
Proof.
  destruct te as [t [k' ty]]. intros H. unfold online_event in H. cbn [fst snd] in H. destruct ty; try discriminate H.
  - unfold online_broadcast in H.
    apply bind_ok in H. destruct H as (nd & Hnd & H). apply bind_ok in H. destruct H as (yk & Hyk & H). apply bind_ok in H. destruct H as (fr & Hfr & H).
    cbv zeta in H. destruct (existsb _ _); [discriminate|]. apply bind_ok in H. destruct H as (ik & Hik & H).
    destruct (p_whole (o_p c)).
    + apply bind_ok in H. destruct H as (prev & _ & H). apply bind_ok in H. destruct H as (z & _ & H). apply bind_ok in H. destruct H as (b & Hb & H).
      injection H as <-. cbn [os_zl]. apply upd_len.
    + apply bind_ok in H. destruct H as (lup & _ & H). apply bind_ok in H. destruct H as (wir & _ & H). apply bind_ok in H. destruct H as (wir' & _ & H).
      apply bind_ok in H. destruct H as (lst & _ & H). apply bind_ok in H. destruct H as (z & _ & H). apply bind_ok in H. destruct H as (b & Hb & H).
      injection H as <-. cbn [os_zl]. apply upd_len.
  - unfold online_update in H.
    apply bind_ok in H. destruct H as (nd & Hnd & H). apply bind_ok in H. destruct H as (yk & Hyk & H).
    apply bind_ok in H. destruct H as (ik & Hik & H). apply bind_ok in H. destruct H as (b' & Hb' & H).
    apply bind_ok in H. destruct H as (fr & Hfr & H). apply bind_ok in H. destruct H as (be & Hbe & H).
    apply bind_ok in H. destruct H as (zk & Hzk & H). cbv zeta in H. destruct (existsb _ _); [discriminate|].
    apply bind_ok in H. destruct H as (psf & Hpsf & H). destruct (_ && _)%bool; [discriminate|].
    apply bind_ok in H. destruct H as (xs & Hxs & H). apply bind_ok in H. destruct H as (psf2 & Hpsf2 & H).
    apply bind_ok in H. destruct H as (d & Hd & H). apply bind_ok in H. destruct H as (d' & Hd' & H).
    apply bind_ok in H. destruct H as (dl & Hdl & H). apply bind_ok in H. destruct H as (dl' & Hdl' & H).
    injection H as <-. reflexivity.
Qed.
Lemma run_zl c y evs : forall st r, foldM (online_event c y) evs st = Ok r -> length (os_zl r) = length (os_zl st).
Proof.
  induction evs as [|te evs IH]; intros st r H; [now injection H as <-|]. cbn [foldM] in H. apply bind_ok in H. destruct H as (s & Hs & H).
  rewrite (IH s r H). exact (event_zl c y te st s Hs).
Qed.
