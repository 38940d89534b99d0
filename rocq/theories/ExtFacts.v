(** Proofs about external filters. *)
From Verif Require Import Base BaseFacts Buffers BufFacts Cx CxFacts Batch BatchFacts Ext ExtSpec.
From Coq Require Import Reals Lra.
Open Scope R_scope.

(** ** One update *)
Lemma ext_step p w t s s' : ext_update p w t s = Ok s' ->
  exists old new, nth_error (x_ext s) (x_i s) = Some old /\ x_i s' = S (x_i s) /\ (S (x_i s) < length (x_ext s))%nat /\
    x_ext s' = upd (S (x_i s)) new (x_ext s) /\
    ((xp_ref_only p = true /\ new = (fun _ c => if Nat.eqb c (xp_ref p) then cone else czero) /\ x_target s' = x_target s /\ x_last s' = x_last s) \/
     (xp_ref_only p = false /\ xp_single p = true /\ new = old /\ x_target s' = x_target s /\ x_last s' = x_last s) \/
     (xp_ref_only p = false /\ xp_single p = false /\ xp_off p = true /\ new = w /\ x_target s' = x_target s /\ x_last s' = x_last s) \/
     (xp_ref_only p = false /\ xp_single p = false /\ xp_off p = false /\ new = lin (xp_beta p) old (1 - xp_beta p) (x_target s) /\
       ((match t with None => x_last s' = x_last s | Some t => xp_every p <= t - x_last s /\ x_last s' = t end /\
          x_target s' = lin (1 - xp_alpha p) (x_target s) (xp_alpha p) w) \/
        ((exists t', t = Some t' /\ t' - x_last s < xp_every p) /\ x_target s' = x_target s /\ x_last s' = x_last s)))).
Proof.
  unfold ext_update. unfold get. destruct (nth_error (x_ext s) (x_i s)) as [old|]; [|discriminate]. cbn [bind]. intros H. exists old.
  destruct (xp_ref_only p) eqn:E1; [|destruct (xp_single p) eqn:E2; [|destruct (xp_off p) eqn:E3]].
  all: destruct (put _ _ _) as [l|] eqn:E in H; [|discriminate]; cbn [bind] in H; apply put_inv in E; destruct E as [L ->]; apply ok_inj in H; subst s'; cbn [x_i x_ext x_target x_last].
  1-3: eexists; do 3 (split; [reflexivity || exact L|]); split; [reflexivity|].
  - left. auto.
  - right; left. auto.
  - right; right; left. auto 6.
  - eexists. do 3 (split; [reflexivity || exact L|]). split; [reflexivity|]. right; right; right. do 4 (split; [reflexivity|]).
    destruct t as [t|]; [|left; auto]. destruct (Rle_dec (xp_every p) (t - x_last s)) as [Hle|Hn].
    + left. auto.
    + right. split; [|auto]. exists t. split; [reflexivity | lra].
Qed.

(** ** Staying within bounds *)
Lemma lin_within lo hi a v w : 0 <= a <= 1 -> within lo hi v -> within lo hi w -> within lo hi (lin a v (1 - a) w).
Proof.
  intros Ha Hv Hw f c. destruct (Hv f c) as [[A1 A2] [A3 A4]], (Hw f c) as [[B1 B2] [B3 B4]]. unfold lin. cbn.
  split; split; nra.
Qed.
Lemma lin_within' lo hi a v w : 0 <= a <= 1 -> within lo hi v -> within lo hi w -> within lo hi (lin (1 - a) v a w).
Proof.
  intros Ha Hv Hw f c. destruct (Hv f c) as [[A1 A2] [A3 A4]], (Hw f c) as [[B1 B2] [B3 B4]]. unfold lin. cbn.
  split; split; nra.
Qed.

Lemma step_within lo hi p w t s s' : ext_update p w t s = Ok s' -> xp_ref_only p = false -> 0 <= xp_beta p <= 1 -> 0 <= xp_alpha p <= 1 ->
  within lo hi w -> within lo hi (x_target s) -> (forall v, In v (x_ext s) -> within lo hi v) ->
  within lo hi (x_target s') /\ (forall v, In v (x_ext s') -> within lo hi v).
Proof.
  intros H Hr Hb Ha Hw Ht He. apply ext_step in H. destruct H as (old & new & H1 & H2 & H3 & H4 & H).
  assert (Hold : within lo hi old) by (apply He; eapply nth_error_In; eauto).
  assert (G : within lo hi new -> forall v, In v (x_ext s') -> within lo hi v).
  { intros Hn v Hv. rewrite H4 in Hv. apply In_nth_error in Hv. destruct Hv as [j Hj].
    destruct (Nat.eq_dec j (S (x_i s))) as [->|Hne].
    - rewrite upd_nth_same in Hj by exact H3. injection Hj as <-. exact Hn.
    - rewrite upd_nth_other in Hj by lia. apply He. eapply nth_error_In; eauto. }
  destruct H as [H|[H|[H|H]]].
  - destruct H as (H & _). congruence.
  - destruct H as (_ & _ & -> & -> & _). split; [exact Ht | exact (G Hold)].
  - destruct H as (_ & _ & _ & -> & -> & _). split; [exact Ht | exact (G Hw)].
  - destruct H as (_ & _ & _ & -> & H). split; [|apply G, lin_within; assumption].
    destruct H as [[_ ->]|[_ [-> _]]]; [apply lin_within'; assumption | exact Ht].
Qed.
Lemma run_within lo hi p evs : xp_ref_only p = false -> 0 <= xp_beta p <= 1 -> 0 <= xp_alpha p <= 1 ->
  (forall ev, In ev evs -> within lo hi (fst ev)) -> forall s s', ext_run p evs s = Ok s' ->
  within lo hi (x_target s) -> (forall v, In v (x_ext s) -> within lo hi v) ->
  within lo hi (x_target s') /\ (forall v, In v (x_ext s') -> within lo hi v).
Proof.
  intros Hr Hb Ha. induction evs as [|[w t] evs IH]; intros Hev s s' H Ht He; unfold ext_run in H; cbn [foldM] in H.
  - injection H as <-. auto.
  - cbn [fst snd] in H. destruct (ext_update p w t s) as [s1|] eqn:E; [|discriminate]. cbn [bind] in H.
    destruct (step_within lo hi p w t s s1 E Hr Hb Ha) as [G1 G2]; [apply (Hev (w, t)); left; reflexivity | exact Ht | exact He|].
    apply (IH ltac:(intros; apply Hev; right; assumption) s1 s' H G1 G2).
Qed.

(** ** Spacing of the target's moves *)
Lemma trace_head p evs s l : ext_trace p evs s = Ok l -> nth_error l 0 = Some s.
Proof. destruct evs; cbn; [intros H; injection H as <-; reflexivity|]. destruct (ext_update _ _ _ s) as [x|]; [|discriminate]. cbn.
  destruct (ext_trace p evs x); [|discriminate]. cbn. intros H; injection H as <-. reflexivity. Qed.

Lemma last_le p w t s s' lo : ext_update p w (Some t) s = Ok s' -> x_last s <= lo -> lo <= t -> x_last s' <= t.
Proof. intros H H1 H2. apply ext_step in H. destruct H as (old & new & _ & _ & _ & _ & H).
  destruct H as [H|[H|[H|H]]]; [destruct H as (_ & _ & _ & ->) | destruct H as (_ & _ & _ & _ & ->) | destruct H as (_ & _ & _ & _ & _ & ->) |
  destruct H as (_ & _ & _ & _ & [[[_ ->] _]|(_ & _ & ->)])]; lra. Qed.
Lemma last_ge p w t s s' lo : ext_update p w (Some t) s = Ok s' -> x_last s <= lo -> lo <= t -> x_last s <= x_last s'.
Proof. intros H H1 H2. apply ext_step in H. destruct H as (old & new & _ & _ & _ & _ & H).
  destruct H as [H|[H|[H|H]]]; [destruct H as (_ & _ & _ & ->) | destruct H as (_ & _ & _ & _ & ->) | destruct H as (_ & _ & _ & _ & _ & ->) |
  destruct H as (_ & _ & _ & _ & [[[_ ->] _]|(_ & _ & ->)])]; lra. Qed.
Lemma target_moves p w t s s' : ext_update p w (Some t) s = Ok s' -> x_target s' <> x_target s -> xp_every p <= t - x_last s /\ x_last s' = t.
Proof. intros H Hne. apply ext_step in H. destruct H as (old & new & _ & _ & _ & _ & H).
  destruct H as [H|[H|[H|H]]]; [destruct H as (_ & _ & H & _) | destruct H as (_ & _ & _ & H & _) | destruct H as (_ & _ & _ & _ & H & _) |
  destruct H as (_ & _ & _ & _ & [[H _]|(_ & H & _)])]; try congruence; exact H. Qed.

(** a move at event [k] is at least [every] after [x_last] of the start *)
Lemma move_after_last p evs : forall s l lo, ext_trace p evs s = Ok l -> times_sorted lo evs -> x_last s <= lo ->
  forall k w t sk sk', nth_error evs k = Some (w, Some t) -> nth_error l k = Some sk -> nth_error l (S k) = Some sk' ->
  x_target sk' <> x_target sk -> xp_every p <= t - x_last s.
Proof.
  induction evs as [|[w0 [t0|]] evs IH]; intros s l lo H Hso Hlo k w t sk sk' He Hk Hk' Hne; cbn in Hso; [destruct k; discriminate | | contradiction].
  destruct Hso as [Hlt Hso]. cbn [ext_trace fst snd] in H. destruct (ext_update p w0 (Some t0) s) as [s1|] eqn:E; [|discriminate]. cbn [bind] in H.
  destruct (ext_trace p evs s1) as [l1|] eqn:El; [|discriminate]. cbn [bind] in H. apply ok_inj in H. subst l.
  destruct k as [|k]; cbn in He, Hk, Hk'.
  - injection He as <- <-. injection Hk as <-. pose proof (trace_head _ _ _ _ El) as Hh; cbn in Hh; rewrite Hh in Hk'. injection Hk' as <-.
    destruct (target_moves _ _ _ _ _ E Hne) as [H _]. exact H.
  - assert (H := IH s1 l1 t0 El Hso (last_le _ _ _ _ _ _ E Hlo Hlt) k w t sk sk' He Hk Hk' Hne).
    assert (H' := last_ge _ _ _ _ _ _ E Hlo Hlt). lra.
Qed.
Lemma moves_spaced p evs : forall s l lo, ext_trace p evs s = Ok l -> times_sorted lo evs -> x_last s <= lo ->
  forall j k w t sj sj' w' t' sk sk', (j < k)%nat ->
  nth_error evs j = Some (w, Some t) -> nth_error l j = Some sj -> nth_error l (S j) = Some sj' -> x_target sj' <> x_target sj ->
  nth_error evs k = Some (w', Some t') -> nth_error l k = Some sk -> nth_error l (S k) = Some sk' -> x_target sk' <> x_target sk ->
  xp_every p <= t' - t.
Proof.
  induction evs as [|[w0 [t0|]] evs IH]; intros s l lo H Hso Hlo j k w t sj sj' w' t' sk sk' Hjk He Hj Hj' Hnj Hek Hk Hk' Hnk; cbn in Hso; [destruct j; discriminate | | contradiction].
  destruct Hso as [Hlt Hso]. cbn [ext_trace fst snd] in H. destruct (ext_update p w0 (Some t0) s) as [s1|] eqn:E; [|discriminate]. cbn [bind] in H.
  destruct (ext_trace p evs s1) as [l1|] eqn:El; [|discriminate]. cbn [bind] in H. apply ok_inj in H. subst l.
  destruct k as [|k]; [lia|]. cbn in Hek, Hk, Hk'. destruct j as [|j]; cbn in He, Hj, Hj'.
  - injection He as <- <-. injection Hj as <-. pose proof (trace_head _ _ _ _ El) as Hh; cbn in Hh; rewrite Hh in Hj'. injection Hj' as <-.
    destruct (target_moves _ _ _ _ _ E Hnj) as [_ Hl]. rewrite <- Hl.
    apply (move_after_last p evs s1 l1 t0 El Hso ltac:(rewrite Hl; lra) k w' t' sk sk' Hek Hk Hk' Hnk).
  - apply (IH s1 l1 t0 El Hso (last_le _ _ _ _ _ _ E Hlo Hlt) j k w t sj sj' w' t' sk sk' ltac:(lia) He Hj Hj' Hnj Hek Hk Hk' Hnk).
Qed.

(** no move at the target *)
Lemma lin_same a v f c : lin a v (1 - a) v f c = v f c.
Proof. unfold lin. apply cx_eq; cbn; ring. Qed.
