(** Facts about the closed loop: quiet controllers. *)
From Verif Require Import Base BaseFacts Dxcp DxcpFacts Resamp ResampFacts ResampProps Phat PhatFacts PhatFacts2 PhatProps Loop LoopSpec LoopFacts.
From Coq Require Import Reals Lra.
Local Open Scope R_scope.

Lemma fed_zero (ests : list R) : (forall e, In e ests -> e = 0) -> forall xs, length xs = length ests -> fed 0 xs ests = map (fun b => (b, 0, 0)) xs.
Proof.
  induction ests as [|e ests IH]; intros H [|x xs] L; try discriminate; [reflexivity|]. cbn [fed map]. rewrite (H e (or_introl eq_refl)), Ropp_0. f_equal.
  apply IH; [intros; apply H; right; assumption | cbn in L; lia].
Qed.

Definition wait_updates (c : config) : nat := (accum_frames c + 1 + (size c / shift c - 1) + add_wait c + settle c)%nat.

Section Q.
Context {C A : Type} (c : config) (frame : nat) (ctrl : C -> A -> R -> C) (out : C -> R).
Hypothesis (HU : usable c) (HF : (0 < frame)%nat).
Let K := (shift c / frame)%nat.

Lemma num_updates P n (st : loop C) bufs s : (0 < K)%nat -> linv c frame P n st bufs s -> length bufs = (n / K)%nat.
Proof.
  intros HK I. destruct (i_ct _ _ _ _ _ _ _ I HK) as [E B]. fold K in E, B. apply (Nat.div_unique n K (length bufs) (cnt (l_est st) - 1)); lia.
Qed.

(** the frames put out while the estimates are zero *)
Lemma quiet_frames inp outs (st st' : loop C) routs : (forall o, In o outs -> o_est o = 0) -> length outs = length inp -> frames_ok (A := A) frame inp ->
  rs_run frame (rs_new frame) (fed 0 (map (fun p => snd (fst p)) inp) (map o_est outs)) = Ok (routs, snd (l_sync st')) -> map fst routs = map o_frame outs ->
  map o_frame outs = firstn (length inp) (repeat 0 frame :: repeat 0 frame :: map (fun p => snd (fst p)) inp).
Proof.
  intros Ho L Hf Er Em. rewrite fed_zero in Er.
  - destruct (C43_zero_offset_two_blocks frame (map (fun p => snd (fst p)) inp) HF) as (routs' & rst & E & M).
    + intros bl Hb. apply in_map_iff in Hb. destruct Hb as ([[x0 x1] a] & <- & Hi). apply (Hf x0 x1 a Hi).
    + rewrite E in Er. injection Er as <- _. rewrite <- Em, M, map_length. reflexivity.
  - intros e He. apply in_map_iff in He. destruct He as (o & <- & Hi). apply Ho. exact Hi.
  - rewrite !map_length. lia.
Qed.

Lemma quiet_run (Qc : C -> Prop) (bound : nat -> Prop) c0 inp : Qc c0 -> (forall ct, Qc ct -> out ct = 0) -> frames_ok frame inp -> (forall n, (n <= length inp)%nat -> bound n) ->
  (forall n, bound (S n) -> bound n) ->
  (forall n st' bufs' s' x0 x1 a ct, In (x0, x1, a) inp -> Qc ct -> bound (S n) -> linv c frame (fun _ => True) (S n) (st' : loop C) bufs' s' -> Qc (ctrl ct a (sro s'))) ->
  exists outs st', loop_run c frame ctrl out (loop_new c frame c0) inp = Ok (outs, st') /\ length outs = length inp /\
    (forall k o, nth_error outs k = Some o -> o_est o = 0 /\ exists (stk : loop C) bk sk, linv c frame (fun _ => True) (S k) stk bk sk /\ o_raw o = sro sk) /\
    map o_frame outs = firstn (length inp) (repeat 0 frame :: repeat 0 frame :: map (fun p => snd (fst p)) inp).
Proof.
  intros Q0 Qo Hf Hb Hbd Hs.
  destruct (lrun c frame ctrl out HU HF (fun _ => True) (fun n st _ => bound n -> Qc (l_ctrl st)) inp I) with (n := 0%nat) (st := loop_new c frame c0) (bufs := @nil ((nat -> R) * (nat -> R))) (s := st0 c)
    as (outs & st' & bufs' & s' & E & L & _ & _ & Ho & routs & Er & Em).
  - intros x0 x1 a Hi. destruct (Hf x0 x1 a Hi). repeat split; assumption.
  - intros n st bufs s st' bufs' s' x0 x1 a Hi _ Qs Hl Ec Hbn. rewrite Ec. apply (Hs n st' bufs' s' x0 x1 a); [exact Hi | apply Qs; apply Hbd; exact Hbn | exact Hbn | exact Hl].
  - exact (linv_new c frame ctrl out HF (fun _ => True) c0 I).
  - intros _. exact Q0.
  - assert (Hz : forall k o, nth_error outs k = Some o -> o_est o = 0 /\ exists (stk : loop C) bk sk, linv c frame (fun _ => True) (S k) stk bk sk /\ o_raw o = sro sk).
    { intros k o Hk. assert (Hlt : (k < length outs)%nat) by (apply nth_error_Some; congruence). destruct (Ho k o Hk) as (stk & bk & sk & H1 & H2 & H3 & H4 & _). cbn [Nat.add] in *. split.
      - rewrite H4. apply Qo. apply H2. apply Hb. lia.
      - exists stk, bk, sk. split; assumption. }
    exists outs, st'. split; [exact E|]. split; [exact L|]. split; [exact Hz|].
    cbn [loop_new l_sync l_ctrl sync_new snd] in Er. rewrite (Qo c0 Q0) in Er.
    apply (quiet_frames inp outs st' st' routs); try assumption. intros o Hi. apply In_nth_error in Hi. destruct Hi as [k Hk]. apply (Hz k o Hk).
Qed.

Lemma waits (Qc : C -> Prop) c0 inp : Qc c0 -> (forall ct, Qc ct -> out ct = 0) -> (forall ct a, Qc ct -> Qc (ctrl ct a 0)) -> frames_ok frame inp ->
  (0 < K)%nat -> (length inp / K < wait_updates c)%nat ->
  exists outs st', loop_run c frame ctrl out (loop_new c frame c0) inp = Ok (outs, st') /\ length outs = length inp /\
    (forall o, In o outs -> o_raw o = 0 /\ o_est o = 0) /\
    map o_frame outs = firstn (length inp) (repeat 0 frame :: repeat 0 frame :: map (fun p => snd (fst p)) inp).
Proof.
  intros Q0 Qo Qs Hf HK HW.
  assert (Z : forall n (st : loop C) bufs s, (n / K < wait_updates c)%nat -> linv c frame (fun _ => True) n st bufs s -> sro s = 0).
  { intros n st bufs s Hn I. apply (C89_waits c 0 bufs s HU); [apply (i_up _ _ _ _ _ _ _ I)|]. rewrite (num_updates _ n st bufs s HK I). exact Hn. }
  destruct (quiet_run Qc (fun n => (n / K < wait_updates c)%nat) c0 inp Q0 Qo Hf) as (outs & st' & E & L & G & M).
  - intros n Hn. apply Nat.le_lt_trans with (length inp / K)%nat; [apply Nat.div_le_mono; lia | exact HW].
  - intros n Hn. apply Nat.le_lt_trans with (S n / K)%nat; [apply Nat.div_le_mono; lia | exact Hn].
  - intros n st' bufs' s' x0 x1 a ct _ Hq Hn I. rewrite (Z _ _ _ _ Hn I). apply Qs. exact Hq.
  - exists outs, st'. split; [exact E|]. split; [exact L|]. split; [|exact M]. intros o Hi. apply In_nth_error in Hi. destruct Hi as [k Hk].
    assert (Hlt : (k < length outs)%nat) by (apply nth_error_Some; congruence). destruct (G k o Hk) as (G1 & stk & bk & sk & I & G2). split; [|exact G1]. rewrite G2. apply (Z (S k) stk bk sk); [|exact I].
    apply Nat.le_lt_trans with (length inp / K)%nat; [apply Nat.div_le_mono; lia | exact HW].
Qed.
Lemma inactive (Qc : C -> Prop) c0 (off : A) inp : Qc c0 -> (forall ct, Qc ct -> out ct = 0) -> (forall ct r, Qc ct -> Qc (ctrl ct off r)) -> frames_ok frame inp ->
  (forall x0 x1 a, In (x0, x1, a) inp -> a = off) ->
  exists outs st', loop_run c frame ctrl out (loop_new c frame c0) inp = Ok (outs, st') /\ length outs = length inp /\
    (forall o, In o outs -> o_est o = 0) /\
    map o_frame outs = firstn (length inp) (repeat 0 frame :: repeat 0 frame :: map (fun p => snd (fst p)) inp).
Proof.
  intros Q0 Qo Qs Hf Ha. destruct (quiet_run Qc (fun _ => True) c0 inp Q0 Qo Hf) as (outs & st' & E & L & G & M); try (intros; exact I).
  - intros n st' bufs' s' x0 x1 a ct Hi Hq _ _. rewrite (Ha x0 x1 a Hi). apply Qs. exact Hq.
  - exists outs, st'. split; [exact E|]. split; [exact L|]. split; [|exact M]. intros o Hi. apply In_nth_error in Hi. destruct Hi as [k Hk]. apply (G k o Hk).
Qed.
End Q.

(** the two controllers at rest *)
Lemma simple_rest acs r : acs = 0 \/ r = 0 -> simple_ctrl (0, 0) acs r = (0, 0).
Proof.
  intros H. unfold simple_ctrl. cbv zeta. cbn [fst snd]. replace ((1 - acs) * 0 + acs * r) with 0 by (destruct H as [-> | ->]; ring). rewrite Rmult_0_r, Rplus_0_r.
  destruct (Rlt_dec 0 (-100)); [lra|]. destruct (Rlt_dec 100 0); [lra | reflexivity].
Qed.
Definition at_rest (st : imc) : Prop := dS st = (0, 0, 0) /\ sS st = (0, 0, 0).
Lemma imc_rest k1 k2 c1 c2 delay st acs r : acs = false \/ r = 0 -> at_rest st -> at_rest (imc_step k1 k2 c1 c2 delay st acs r).
Proof.
  intros H [H1 H2]. unfold imc_step. rewrite H1, H2. cbv zeta.
  assert (E : (if Nat.leb (Dxcp.ell st) delay then 0 else if acs then r else 0) = 0) by (destruct (Nat.leb _ _); [reflexivity|]; destruct H as [-> | ->]; [reflexivity | destruct acs; reflexivity]).
  rewrite E. split; cbn [dS sS]; [reflexivity|]. f_equal. f_equal. ring.
Qed.
