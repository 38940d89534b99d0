(** Facts about the closed loop: totality, and silence. *)
From Verif Require Import Base BaseFacts Dxcp DxcpFacts Resamp ResampFacts Phat PhatFacts PhatFacts2 PhatProps Loop LoopSpec LoopFacts LoopFacts2.
From Coq Require Import Reals Lra.
Local Open Scope R_scope.

Lemma total_run {C A} c frame (ctrl : C -> A -> R -> C) (out : C -> R) (Qc : C -> Prop) c0 inp : usable c -> (0 < frame)%nat -> frames_ok frame inp ->
  Qc c0 -> (forall ct a r, Qc ct -> Qc (ctrl ct a r)) ->
  exists outs st', loop_run c frame ctrl out (loop_new c frame c0) inp = Ok (outs, st') /\ length outs = length inp /\
    (forall o, In o outs -> length (o_frame o) = frame /\ (exists ct, Qc ct /\ o_est o = out ct) /\ - INR frame - 1 / 2 <= o_shift o <= INR frame - 1 / 2) /\
    (exists routs, rs_run frame (rs_new frame) (fed (out c0) (map (fun p => snd (fst p)) inp) (map o_est outs)) = Ok (routs, snd (l_sync st')) /\ map fst routs = map o_frame outs).
Proof.
  intros HU HF Hf Q0 Qs.
  destruct (lrun c frame ctrl out HU HF (fun _ => True) (fun n st _ => Qc (l_ctrl st)) inp I) with (n := 0%nat) (st := loop_new c frame c0) (bufs := @nil ((nat -> R) * (nat -> R))) (s := st0 c)
    as (outs & st' & bufs' & s' & E & L & _ & _ & Ho & Hr).
  - intros x0 x1 a Hi. destruct (Hf x0 x1 a Hi). repeat split; assumption.
  - intros n st bufs s st' bufs' s' x0 x1 a Hi _ Qn Hl Ec. rewrite Ec. apply Qs. exact Qn.
  - exact (linv_new c frame ctrl out HF (fun _ => True) c0 I).
  - exact Q0.
  - exists outs, st'. split; [exact E|]. split; [exact L|]. split; [|exact Hr]. intros o Hi. apply In_nth_error in Hi. destruct Hi as [k Hk].
    destruct (Ho k o Hk) as (stk & bk & sk & H1 & H2 & H3 & H4 & H5 & H6). split; [exact H6|]. split; [exists (l_ctrl stk); split; assumption|]. rewrite H5. apply (i_sh _ _ _ _ _ _ _ H1).
Qed.
Lemma simple_limits ct a r : -100 <= snd (simple_ctrl ct a r) <= 100.
Proof. unfold simple_ctrl. cbv zeta. cbn [snd]. destruct (Rlt_dec _ _); [lra|]. destruct (Rlt_dec _ _); lra. Qed.

Lemma silent_loop c inp : usable c -> (0 < shift c)%nat -> (0 < b_samples c)%nat -> (1000 <= sro_max c)%nat -> frames_ok (shift c) inp ->
  (forall x0 x1 a, In (x0, x1, a) inp -> a = 1 /\ forall v, In v x0 -> v = 0) ->
  exists outs st', simple_loop c (shift c) inp = Ok (outs, st') /\ length outs = length inp /\
    forall k o, nth_error outs k = Some o -> (wait_updates c + 9 <= S k)%nat -> o_est o = -100.
Proof.
  intros HU HF HB HM Hf HA. set (W := wait_updates c).
  assert (K1 : (shift c / shift c = 1)%nat) by (apply Nat.div_same; lia).
  assert (NU : forall P n (st : loop (R * R)) bufs s, linv c (shift c) P n st bufs s -> length bufs = n).
  { intros P n st bufs s I. rewrite (num_updates c (shift c) HF P n st bufs s) by (try exact I; try (rewrite K1; lia)). rewrite K1. apply Nat.div_1_r. }
  set (Q := fun (n : nat) (st : loop (R * R)) (s : state) => if Nat.ltb n W then l_ctrl st = (0, 0) else
     -100 <= snd (l_ctrl st) <= Rmax (-100) (-10 * INR (n + 1 - W))).
  destruct (lrun c (shift c) simple_ctrl snd HU HF (fun v => v = 0) Q inp eq_refl) with (n := 0%nat) (st := loop_new c (shift c) (0, 0)) (bufs := @nil ((nat -> R) * (nat -> R))) (s := st0 c)
    as (outs & st' & bufs' & s' & E & L & _ & _ & Ho & _).
  - intros x0 x1 a Hi. destruct (Hf x0 x1 a Hi). destruct (HA x0 x1 a Hi). repeat split; assumption.
  - intros n st bufs s st' bufs' s' x0 x1 a Hi I0 Q0 I1 Ec. destruct (HA x0 x1 a Hi) as [-> _]. pose proof (NU _ _ _ _ _ I1) as Ln. unfold Q in *.
    destruct (Nat.ltb_spec (S n) W) as [H|H].
    + assert (S0 : sro s' = 0). { apply (C89_waits c 0 bufs' s' HU); [apply (i_up _ _ _ _ _ _ _ I1)|]. rewrite Ln. exact H. }
      destruct (Nat.ltb_spec n W); [|lia]. rewrite Ec, Q0, S0. apply simple_rest. right. reflexivity.
    + assert (S0 : sro s' < - INR (sro_max c)).
      { apply (C89_silence_refuted c 0 bufs' s' HU HB); [intros b k Hb _; apply (i_bf _ _ _ _ _ _ _ I1 b k Hb) | rewrite Ln; exact H | apply (i_up _ _ _ _ _ _ _ I1)]. }
      assert (S1 : sro s' <= -1000). { assert (M : INR 1000 <= INR (sro_max c)) by (apply le_INR; exact HM). rewrite INR_IZR_INZ in M. change (IZR (Z.of_nat 1000)) with 1000 in M. lra. }
      assert (V : -100 <= snd (l_ctrl st) /\ snd (l_ctrl st) <= Rmax (-100) (-10 * INR (n + 1 - W))).
      { destruct (Nat.ltb_spec n W) as [Hn|Hn]; [|exact Q0]. rewrite Q0. cbn [snd]. replace (n + 1 - W)%nat with 0%nat by lia. cbn [INR]. rewrite Rmult_0_r. split; [lra | apply Rmax_r]. }
      rewrite Ec. split; [apply simple_limits|]. unfold simple_ctrl. cbv zeta. cbn [fst snd]. replace ((1 - 1) * fst (l_ctrl st) + 1 * sro s') with (sro s') by ring.
      replace (S n + 1 - W)%nat with (S (n + 1 - W)) by lia. rewrite S_INR. set (i := INR (n + 1 - W)) in *. destruct V as [V1 V2]. unfold Rmax in *.
      destruct (Rle_dec (-100) (-10 * i)); destruct (Rle_dec (-100) (-10 * (i + 1))); destruct (Rlt_dec (snd (l_ctrl st) + / 100 * sro s') (-100)); try destruct (Rlt_dec 100 (snd (l_ctrl st) + / 100 * sro s')); lra.
  - exact (linv_new c (shift c) simple_ctrl snd HF (fun v => v = 0) (0, 0) eq_refl).
  - unfold Q. destruct (Nat.ltb_spec 0 W) as [_|H]; [reflexivity|]. unfold W, wait_updates in H. lia.
  - exists outs, st'. split; [exact E|]. split; [exact L|]. intros k o Hk HW. destruct (Ho k o Hk) as (stk & bk & sk & I & Qk & _ & Eo & _). rewrite Eo. unfold Q in Qk. fold W in HW. change (0 + S k)%nat with (S k) in Qk.
    destruct (Nat.ltb_spec (S k) W); [lia|]. assert (G : INR 10 <= INR (S k + 1 - W)) by (apply le_INR; lia). replace (INR 10) with 10 in G by (cbn [INR]; ring). unfold Rmax in Qk. destruct (Rle_dec _ _); lra.
Qed.
