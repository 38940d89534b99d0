(** Lemmas for C67: which broadcast filter is in force. *)
From Verif Require Import Base BaseFacts Sched Buffers BufFacts Chunk ChunkSpec ChunkFacts Cx CxFacts Wola WolaFacts Dist Online OnlineSpec OutSpec OutFacts OutFacts2 OutFacts3 DistSpec DistFacts DistFacts2.
From Coq Require Import Reals Lra.
Local Open Scope R_scope.

Lemma broadcast_filter c y k t st st' : p_whole (o_p c) = false -> online_broadcast c y t k st = Ok st' ->
  (if is_due c k st t && fuses c y k then dist_fct_approx (o_h c) (o_f c) (Z.to_nat (p_Ns (o_p c))) (o_ext c k (nth k (b_i (os_b st)) 0%nat)) = Ok (nth k (os_wir st') [])
   else nth k (os_wir st') [] = nth k (os_wir st) []) /\
  nth k (os_up st') 0%Z = if is_due c k st t then t else nth k (os_up st) 0%Z.
Proof.
  intros Hwh H. unfold online_broadcast in H.
  apply bind_ok in H. destruct H as (nd' & Hnd & H). apply bind_ok in H. destruct H as (yk & Hyk & H). apply bind_ok in H. destruct H as (fr & Hfr & H).
  cbv zeta in H. destruct (existsb _ _) eqn:EX; [discriminate|]. apply bind_ok in H. destruct H as (ik & Hik & H). rewrite Hwh in H.
  apply bind_ok in H. destruct H as (lup & Hlup & H). apply bind_ok in H. destruct H as (wir & Hwir & H). apply bind_ok in H. destruct H as (wir' & Hw' & H).
  apply bind_ok in H. destruct H as (lst & Hlst & H). apply bind_ok in H. destruct H as (z & Hz & H). apply bind_ok in H. destruct H as (b & Hb & H).
  injection H as <-. cbn [os_wir os_up].
  destruct (get_nth _ _ _ [] Hyk) as [Ey _]. destruct (get_nth _ _ _ 0%nat Hik) as [Ei _].
  destruct (get_nth _ _ _ 0%Z Hlup) as [Eu Lu]. destruct (get_nth _ _ _ [] Hwir) as [Ew Lw].
  unfold is_due, fuses. rewrite Ey. rewrite !nth_upd_eq by assumption. rewrite Ei, Eu, Ew.
  set (due := (o_every c <=? Z.abs (t - lup))%Z) in *.
  split; [destruct (due && negb (o_nofuse c && Nat.eqb (length yk) 1))%bool; [exact Hw'|congruence]|].
  destruct due; [now apply nth_upd_eq|exact Eu].
Qed.

Section Force.
  Variables (c : ocfg) (y : list (list (list R))) (k : nat) (st0 : ostate R).
  Hypothesis (Hwh : p_whole (o_p c) = false) (Hi0 : nth k (b_i (os_b st0)) 0%nat = 0%nat) (Hu0 : nth k (os_up st0) 0%Z = 0%Z).

  Definition filter_from (evs : list (Z * (nat * evtype))) (m0 : nat) (wir : list (list R)) : Prop :=
    dist_fct_approx (o_h c) (o_f c) (Z.to_nat (p_Ns (o_p c))) (o_ext c k (length (updates_of k (firstn m0 evs)))) = Ok wir.

  Lemma in_force evs : forall r, foldM (online_event c y) evs st0 = Ok r ->
    (fuses c y k = false -> nth k (os_wir r) [] = nth k (os_wir st0) []) /\
    ((nth k (os_up r) 0%Z = 0%Z /\ nth k (os_wir r) [] = nth k (os_wir st0) [] /\
      forall m t, nth_error evs m = Some (t, (k, Bc)) -> (Z.abs t < o_every c)%Z) \/
     exists m0, nth_error evs m0 = Some (nth k (os_up r) 0%Z, (k, Bc)) /\
       (exists m1 t1, (m1 <= m0)%nat /\ nth_error evs m1 = Some (t1, (k, Bc)) /\ (o_every c <= Z.abs t1)%Z) /\ (fuses c y k = true -> filter_from evs m0 (nth k (os_wir r) [])) /\
       forall m t, (m0 < m)%nat -> nth_error evs m = Some (t, (k, Bc)) -> (Z.abs (t - nth k (os_up r) 0) < o_every c)%Z).
  Proof.
    induction evs as [|te evs IH] using rev_ind; intros r H.
    - injection H as <-. split; [reflexivity|]. left. split; [exact Hu0|]. split; [reflexivity|]. intros [|m]; discriminate.
    - rewrite foldM_app in H. apply bind_ok in H. destruct H as (st & Hst & H). cbn [foldM] in H. apply bind_ok in H. destruct H as (r' & Hr & H). injection H as ->.
      destruct (IH st Hst) as [NF D]. clear IH.
      assert (PRE : forall m, (m <= length evs)%nat -> firstn m (evs ++ [te]) = firstn m evs).
      { intros m Hm. rewrite firstn_app. replace (m - length evs)%nat with 0%nat by lia. cbn [firstn]. apply app_nil_r. }
      assert (CASE : forall m x, nth_error (evs ++ [te]) m = Some x -> (nth_error evs m = Some x /\ (m < length evs)%nat) \/ (m = length evs /\ x = te)).
      { intros m x Hm. destruct (lt_dec m (length evs)) as [L|L].
        - left. rewrite nth_error_app1 in Hm by exact L. auto.
        - right. assert (m < length (evs ++ [te]))%nat by (apply nth_error_Some; congruence). rewrite app_length in *. cbn [length] in *.
          assert (m = length evs) by lia. subst m. rewrite nth_error_app2, Nat.sub_diag in Hm by lia. injection Hm as ->. auto. }
      destruct (is_bc k te) eqn:B.
      + assert (Et := is_bc_true _ _ B). set (t := fst te) in *. rewrite Et in Hr. unfold online_event in Hr. cbn [fst snd] in Hr.
        destruct (broadcast_filter c y k t st r Hwh Hr) as [W U].
        assert (IDX := run_index c y k evs st0 st Hst). rewrite Hi0 in IDX. cbn [Nat.add] in IDX. rewrite IDX in W.
        assert (DUE : is_due c k st t = (o_every c <=? Z.abs (t - nth k (os_up st) 0))%Z) by reflexivity.
        split.
        { intros F. rewrite F, andb_false_r in W. now rewrite W, NF. }
        destruct (is_due c k st t) eqn:ED.
        * right. exists (length evs). rewrite U. assert (EL : nth_error (evs ++ [te]) (length evs) = Some (t, (k, Bc))) by (rewrite nth_error_app2, Nat.sub_diag by lia; cbn; now rewrite Et at 1).
          split; [exact EL|]. symmetry in DUE. apply Z.leb_le in DUE. split.
          { destruct D as [(D1 & _ & _)|(m0 & D1 & (m1 & t1 & M1 & M2 & M3) & _)].
            - exists (length evs), t. rewrite D1 in DUE. split; [lia|]. split; [exact EL|lia].
            - exists m1, t1. assert (m0 < length evs)%nat by (apply nth_error_Some; congruence). split; [lia|]. split; [rewrite nth_error_app1 by lia; exact M2|exact M3]. }
          split.
          -- intros F. rewrite F in W. cbn [andb] in W. unfold filter_from. rewrite PRE, firstn_all by lia. exact W.
          -- intros m t' Hm E. destruct (CASE m _ E) as [[_ L]|[L _]]; lia.
        * cbn [andb] in W. symmetry in DUE. apply Z.leb_gt in DUE. rewrite U, W. destruct D as [(D1 & D2 & D3)|(m0 & D1 & (m1 & t1 & M1 & M2 & M3) & D2 & D3)].
          -- left. split; [exact D1|]. split; [exact D2|]. intros m t' E. destruct (CASE m _ E) as [[E' _]|[_ E']]; [now apply (D3 m)|].
             rewrite Et in E'. injection E' as ->. rewrite D1 in DUE. fold t. lia.
          -- right. assert (Hm0 : (m0 < length evs)%nat) by (apply nth_error_Some; congruence). exists m0. split; [rewrite nth_error_app1 by exact Hm0; exact D1|]. split; [exists m1, t1; split; [exact M1|split; [rewrite nth_error_app1 by lia; exact M2|exact M3]]|]. split.
             ++ intros F. unfold filter_from. rewrite PRE by lia. exact (D2 F).
             ++ intros m t' Hm E. destruct (CASE m _ E) as [[E' _]|[_ E']]; [now apply (D3 m)|]. rewrite Et in E'. injection E' as ->. exact DUE.
      + destruct (other_bc c y k te st r B Hr) as (W & U & _). rewrite W, U. split; [exact NF|].
        assert (NB : forall m t', nth_error (evs ++ [te]) m = Some (t', (k, Bc)) -> nth_error evs m = Some (t', (k, Bc))).
        { intros m t' E. destruct (CASE m _ E) as [[E' _]|[_ E']]; [exact E'|]. rewrite <- E' in B. unfold is_bc in B. cbn in B. rewrite Nat.eqb_refl in B. discriminate. }
        destruct D as [(D1 & D2 & D3)|(m0 & D1 & (m1 & t1 & M1 & M2 & M3) & D2 & D3)].
        * left. split; [exact D1|]. split; [exact D2|]. intros m t' E. now apply (D3 m), NB.
        * right. assert (Hm0 : (m0 < length evs)%nat) by (apply nth_error_Some; congruence). exists m0. split; [rewrite nth_error_app1 by exact Hm0; exact D1|]. split; [exists m1, t1; split; [exact M1|split; [rewrite nth_error_app1 by lia; exact M2|exact M3]]|]. split.
          -- intros F. unfold filter_from. rewrite PRE by lia. exact (D2 F).
          -- intros m t' Hm E. apply (D3 m); [exact Hm|now apply NB].
  Qed.
End Force.

(** The initial filter passes the reference sensor. *)
Lemma initial_taps c nsens ref T k N : p_N (o_p c) = Z.of_nat N -> (1 < N)%nat -> (k < length nsens)%nat ->
  let wir := nth k (os_wir (online_init 0 c nsens ref T)) [] in
  length wir = nth k nsens 0%nat /\ Forall (fun w => length w = (2 * N - 1)%nat) wir /\
  forall ch j, (ch < nth k nsens 0)%nat -> (- Z.of_nat N <= j < Z.of_nat N - 1)%Z ->
    taps N wir ch j = if (Nat.eqb ch ref && (j =? 0)%Z)%bool then 1 else 0.
Proof.
  intros HN HN1 Hk. cbn [os_wir online_init]. rewrite HN, Nat2Z.id.
  match goal with |- context [map ?f nsens] => set (F := f) end.
  assert (E : nth k (map F nsens) [] = F (nth k nsens 0%nat)).
  { rewrite (nth_indep _ [] (F 0%nat)) by (rewrite map_length; exact Hk). apply map_nth. }
  cbv zeta. rewrite E. unfold F. split; [now rewrite map_length, seq_length|]. split.
  - apply Forall_forall. intros w Hw. apply in_map_iff in Hw. destruct Hw as (s & <- & _). destruct (Nat.eqb s ref); rewrite ?upd_len, repeat_length; reflexivity.
  - intros ch j Hch Hj. unfold taps.
    rewrite nth_map_seq by exact Hch. destruct (Nat.eqb_spec ch ref) as [_|_]; cbn [andb].
    + destruct (Z.eqb_spec j 0) as [->|Hj0].
      * replace (Z.to_nat (0 + Z.of_nat N)) with N by lia. apply nth_upd_eq. rewrite repeat_length. lia.
      * rewrite nth_upd_ne by lia. apply nth_repeat.
    + apply nth_repeat.
Qed.

Lemma fused_delta y k N ref e n : (1 < N)%nat -> (ref < length (nth k y []))%nat -> (e - Z.of_nat N <= n < e)%Z ->
  fused_sample y k N (fun ch j => if (Nat.eqb ch ref && (j =? 0)%Z)%bool then 1 else 0) e n = sample 0 (nth ref (nth k y []) []) n.
Proof.
  intros HN Href Hn. unfold fused_sample. rewrite (sumR_window _ ref 1); [|lia|].
  - cbn [sumR]. rewrite Nat.add_0_r, Nat.eqb_refl, Rplus_0_l. cbn [andb]. rewrite (sumR_window _ N 1); [|lia|].
    + cbn [sumR]. rewrite Nat.add_0_r, Z.sub_diag, Z.eqb_refl, Z.sub_0_r. unfold known.
      destruct (Z.leb_spec (e - Z.of_nat N) n); [|lia]. destruct (Z.ltb_spec n e); [|lia]. cbn [andb]. ring.
    + intros i Hi Ho. destruct (Z.eqb_spec (Z.of_nat i - Z.of_nat N) 0); [lia|ring].
  - intros i Hi Ho. apply sumR_zero. intros j Hj. destruct (Nat.eqb_spec i ref); [lia|]. cbn [andb]. ring.
Qed.
