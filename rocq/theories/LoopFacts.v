(** Facts about the closed loop. *)
From Verif Require Import Base BaseFacts Dxcp DxcpFacts Resamp ResampFacts Phat PhatFacts PhatFacts2 PhatProps Loop LoopSpec.
From Coq Require Import Reals Lra.
Local Open Scope R_scope.

Lemma update_snoc c bufs s b : updates c 0 (st0 c) bufs = Ok s ->
  updates c 0 (st0 c) (bufs ++ [b]) = update c (fst b) (snd b) 0 s.
Proof. intros E. rewrite updates_app, E. cbn [bind updates]. destruct (update c (fst b) (snd b) 0 s); reflexivity. Qed.

Section L.
Context {C A : Type} (c : config) (frame : nat) (ctrl : C -> A -> R -> C) (out : C -> R).
Hypothesis (HU : usable c) (HF : (0 < frame)%nat).
Let K := (shift c / frame)%nat.

(** [n] frames so far; [P] holds for the values of the first channel *)
Record linv (P : R -> Prop) (n : nat) (st : loop C) (bufs : list ((nat -> R) * (nat -> R))) (s : state) : Prop := {
  i_db : exists h, db_inv (repeat 0 frame) 3 (fst (l_sync st)) h /\ (forall x, In x h -> length x = frame /\ forall v, In v x -> P v);
  i_rs : wf frame (snd (l_sync st));
  i_sh : - INR frame - 1 / 2 <= r_shift (snd (l_sync st)) <= INR frame - 1 / 2;
  i_st : sta (l_est st) = Ok s;
  i_up : updates c 0 (st0 c) bufs = Ok s;
  i_ib : forall p, In p (ibuf (l_est st)) -> P (fst p);
  i_bf : forall b k, In b bufs -> P (fst b k);
  i_le : (length bufs <= n)%nat;
  i_ct : (0 < K)%nat -> (length bufs * K + cnt (l_est st) = S n /\ 1 <= cnt (l_est st) <= K)%nat }.

Lemma linv_new (P : R -> Prop) c0 : P 0 -> linv P 0 (loop_new c frame c0) [] (st0 c).
Proof.
  intros P0. constructor; cbn [loop_new l_sync l_est sync_new est_new fst snd sta ibuf cnt length]; try reflexivity.
  - exists []. split; [apply db_inv_new; lia | intros x []].
  - apply wf_new.
  - cbn. assert (1 <= INR frame) by (apply (le_INR 1); lia). lra.
  - intros p Hp. apply repeat_spec in Hp as ->. exact P0.
  - intros b k [].
  - intros HK. split; [reflexivity | lia].
Qed.

Lemma linv_step (P : R -> Prop) n st bufs s x0 x1 acs : P 0 -> linv P n st bufs s -> length x0 = frame -> length x1 = frame -> (forall v, In v x0 -> P v) ->
  exists o st' bufs' s' rng, loop_step c frame ctrl out st x0 x1 acs = Ok (o, st') /\ linv P (S n) st' bufs' s' /\
    o_raw o = sro s' /\ l_ctrl st' = ctrl (l_ctrl st) acs (sro s') /\ o_est o = out (l_ctrl st') /\ o_shift o = r_shift (snd (l_sync st')) /\ length (o_frame o) = frame /\
    rs_process frame (snd (l_sync st)) x1 (- out (l_ctrl st)) 0 = Ok (o_frame o, rng, snd (l_sync st')).
Proof.
  intros P0 [(h & Hdb & Hh) Irs Ish Ist Iup Iib Ibf Ile Ict] L0 L1 HP.
  destruct (db_inv_write (repeat 0 frame) 3 (fst (l_sync st)) h x0 ltac:(lia) Hdb) as (d' & Ed & Hdb').
  pose proof (db_inv_read (repeat 0 frame) 3 d' (x0 :: h) ltac:(lia) Hdb') as Er. set (z0 := nth (3 - 1) (x0 :: h) (repeat 0 frame)) in *.
  assert (Hz : length z0 = frame /\ forall v, In v z0 -> P v).
  { unfold z0. destruct (Nat.lt_ge_cases (3 - 1) (length (x0 :: h))) as [Hc|Hc].
    - destruct (nth_In (x0 :: h) (repeat 0 frame) Hc) as [E|E]; [rewrite <- E; split; assumption | apply Hh; exact E].
    - rewrite nth_overflow by exact Hc. split; [apply repeat_length|]. intros v Hv. apply repeat_spec in Hv as ->. exact P0. }
  destruct Hz as [Lz Pz].
  set (est := out (l_ctrl st)).
  assert (PR := process_ok frame (snd (l_sync st)) x1 (- est) 0 Irs L1). cbv zeta in PR.
  destruct (select_range frame _) as [[a e] u] eqn:Esel. destruct PR as (rs' & Ers & Wrs & Lt & Ls & Est). set (z1 := firstn frame _) in Ers.
  assert (Lz1 : length z1 = frame) by (unfold z1; rewrite firstn_length, Lt; lia).
  assert (Ish' : - INR frame - 1 / 2 <= r_shift rs' <= INR frame - 1 / 2).
  { refine (run_shift frame [(x1, - est, 0)] HF _ _ (snd (l_sync st)) [(z1, (a, e))] rs' Irs Ish _).
    - intros b r o [[= <- _ _]|[]]. exact L1.
    - intros b r o [[= _ _ <-]|[]]. reflexivity.
    - cbn [rs_run]. rewrite Ers. reflexivity. }
  assert (Lc : length (combine z0 z1) = frame) by (rewrite combine_length; lia).
  assert (ES : sync_step frame (l_sync st) x0 x1 est = Ok (z0, z1, (d', rs'))) by (unfold sync_step; rewrite Ers; cbn [bind fst snd]; rewrite Ed; cbn [bind]; rewrite Er; reflexivity).
  unfold loop_step. fold est. rewrite ES. cbn [bind fst snd]. unfold process_data. rewrite Lc, Nat.eqb_refl. cbn [negb bind sta].
  set (b := skipn frame (ibuf (l_est st)) ++ combine z0 z1).
  assert (Pb : forall p, In p b -> P (fst p)).
  { intros p Hp. unfold b in Hp. apply in_app_or in Hp as [Hp|Hp].
    - apply Iib. rewrite <- (firstn_skipn frame (ibuf (l_est st))). apply in_or_app. right. exact Hp.
    - destruct p as [v w]. apply in_combine_l in Hp. exact (Pz v Hp). }
  destruct (Nat.eqb_spec (cnt (l_est st)) (shift c / frame)) as [Hit|Hit].
  - set (fb := ((fun k => fst (nth k b (0, 0))), (fun k => snd (nth k b (0, 0)))) : (nat -> R) * (nat -> R)).
    destruct (C89_defined c 0 (bufs ++ [fb]) HU) as (s' & Es'). pose proof Es' as Eu. rewrite (update_snoc c bufs s fb Iup) in Eu.
    unfold est_update at 1. rewrite Ist. cbn [bind]. cbn [fst snd fb] in Eu. rewrite Eu. cbn [bind].
    eexists _, _, (bufs ++ [fb]), s', (a, e). split; [reflexivity|]. cbn [o_raw o_est o_shift o_frame l_ctrl l_sync snd].
    split; [|repeat (split; [first [reflexivity | assumption]|]); assumption].
    constructor; cbn [l_sync l_est fst snd sta ibuf cnt].
    + exists (x0 :: h). split; [exact Hdb'|]. intros x [<-|Hx]; [split; assumption | apply Hh; exact Hx].
    + exact Wrs.
    + exact Ish'.
    + exact Eu.
    + exact Es'.
    + exact Pb.
    + intros b' k Hb'. apply in_app_or in Hb' as [Hb'|[<-|[]]]; [apply Ibf; exact Hb'|]. cbn [fst fb]. destruct (Nat.lt_ge_cases k (length b)) as [Hk|Hk]; [apply Pb; apply nth_In; exact Hk | rewrite nth_overflow by exact Hk; exact P0].
    + rewrite app_length. cbn [length]. lia.
    + intros HK. specialize (Ict HK). fold K in Hit. rewrite app_length. cbn [length]. nia.
  - rewrite Ist. cbn [bind]. eexists _, _, bufs, s, (a, e). split; [reflexivity|]. cbn [o_raw o_est o_shift o_frame l_ctrl l_sync snd].
    split; [|repeat (split; [first [reflexivity | assumption]|]); assumption].
    constructor; cbn [l_sync l_est fst snd sta ibuf cnt]; try assumption; try reflexivity.
    + exists (x0 :: h). split; [exact Hdb'|]. intros x [<-|Hx]; [split; assumption | apply Hh; exact Hx].
    + lia.
    + intros HK. specialize (Ict HK). fold K in Hit. lia.
Qed.

(** whole runs *)
Lemma lrun (P : R -> Prop) (Q : nat -> loop C -> state -> Prop) inp : P 0 -> (forall x0 x1 a, In (x0, x1, a) inp -> length x0 = frame /\ length x1 = frame /\ forall v, In v x0 -> P v) ->
  (forall n st bufs s st' bufs' s' x0 x1 a, In (x0, x1, a) inp -> linv P n st bufs s -> Q n st s -> linv P (S n) st' bufs' s' ->
     l_ctrl st' = ctrl (l_ctrl st) a (sro s') -> Q (S n) st' s') ->
  forall n st bufs s, linv P n st bufs s -> Q n st s ->
  exists outs st' bufs' s', loop_run c frame ctrl out st inp = Ok (outs, st') /\ length outs = length inp /\ linv P (n + length inp) st' bufs' s' /\ Q (n + length inp)%nat st' s' /\
    (forall k o, nth_error outs k = Some o -> exists stk bk sk, linv P (n + S k) stk bk sk /\ Q (n + S k)%nat stk sk /\
       o_raw o = sro sk /\ o_est o = out (l_ctrl stk) /\ o_shift o = r_shift (snd (l_sync stk)) /\ length (o_frame o) = frame) /\
    (exists routs, rs_run frame (snd (l_sync st)) (fed (out (l_ctrl st)) (map (fun p => snd (fst p)) inp) (map o_est outs)) = Ok (routs, snd (l_sync st')) /\ map fst routs = map o_frame outs).
Proof.
  intros P0. induction inp as [|[[x0 x1] a] inp IH]; intros HI HQ n st bufs s I0 Q0; cbn [loop_run].
  - exists [], st, bufs, s. rewrite Nat.add_0_r. split; [reflexivity|]. split; [reflexivity|]. split; [exact I0|]. split; [exact Q0|]. split; [intros [|k] o [=]|]. exists []. split; reflexivity.
  - destruct (HI x0 x1 a (or_introl eq_refl)) as (L0 & L1 & HP).
    destruct (linv_step P n st bufs s x0 x1 a P0 I0 L0 L1 HP) as (o & st1 & bufs1 & s1 & rng & E1 & I1 & O1 & O2 & O3 & O4 & O5 & O6).
    pose proof (HQ n st bufs s st1 bufs1 s1 x0 x1 a (or_introl eq_refl) I0 Q0 I1 O2) as Q1.
    destruct (IH (fun y0 y1 b H => HI y0 y1 b (or_intror H)) (fun m t b u t' b' u' y0 y1 d H => HQ m t b u t' b' u' y0 y1 d (or_intror H)) (S n) st1 bufs1 s1 I1 Q1)
      as (outs & st' & bufs' & s' & E2 & Len & I2 & Q2 & Ho & routs & Er & Em).
    rewrite E1. cbn [bind snd fst]. rewrite E2. cbn [bind snd fst]. exists (o :: outs), st', bufs', s'. replace (n + length ((x0, x1, a) :: inp))%nat with (S n + length inp)%nat by (cbn [length]; lia).
    split; [reflexivity|]. split; [cbn [length]; lia|]. split; [exact I2|]. split; [exact Q2|]. split.
    + intros [|k] o' Hk; cbn [nth_error] in Hk.
      * injection Hk as <-. exists st1, bufs1, s1. rewrite Nat.add_1_r. repeat (split; [assumption|]). assumption.
      * replace (n + S (S k))%nat with (S n + S k)%nat by lia. exact (Ho k o' Hk).
    + exists ((o_frame o, rng) :: routs). cbn [map fed fst snd rs_run]. rewrite O6. cbn [bind fst snd]. rewrite O3, Er. cbn [bind fst snd]. split; [reflexivity | rewrite Em; reflexivity].
Qed.
End L.
