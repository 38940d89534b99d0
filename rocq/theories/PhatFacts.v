(** Facts about the DXCP-PhaT estimator. *)
From Verif Require Import Base BaseFacts Cx CxFacts ChunkSpec ChunkFacts WolaFacts Phat.
From Coq Require Import Reals Lra.
Local Open Scope R_scope.

(** ** Largest entry *)
Lemma argmax_from_spec l : forall pre best v, nth_error pre best = Some v -> (forall j, (j < length pre)%nat -> nth j pre 0 <= v) ->
  (forall j, (j < best)%nat -> nth j pre 0 < v) ->
  let i := argmax_from best v (length pre) l in
  (i < length (pre ++ l))%nat /\ (forall j, (j < length (pre ++ l))%nat -> nth j (pre ++ l) 0 <= nth i (pre ++ l) 0) /\
  (forall j, (j < i)%nat -> nth j (pre ++ l) 0 < nth i (pre ++ l) 0).
Proof.
  induction l as [|x l IH]; intros pre best v Hb Hm Hl; cbn [argmax_from].
  - rewrite app_nil_r. assert (L : (best < length pre)%nat) by (apply nth_error_Some; congruence).
    assert (V : nth best pre 0 = v) by (apply nth_error_nth; exact Hb). rewrite V. split; [exact L|]. split; assumption.
  - assert (L : (best < length pre)%nat) by (apply nth_error_Some; congruence).
    replace (pre ++ x :: l) with ((pre ++ [x]) ++ l) by (rewrite <- app_assoc; reflexivity).
    replace (S (length pre)) with (length (pre ++ [x])) by (rewrite app_length; cbn [length]; lia).
    destruct (Rlt_dec v x) as [H|H]; cbv zeta; apply IH.
    + rewrite nth_error_app2 by lia. rewrite Nat.sub_diag. reflexivity.
    + intros j Hj. rewrite app_length in Hj. cbn [length] in Hj. destruct (Nat.eq_dec j (length pre)) as [->|N].
      * rewrite app_nth2 by lia. rewrite Nat.sub_diag. cbn [nth]. lra.
      * rewrite app_nth1 by lia. specialize (Hm j ltac:(lia)). lra.
    + intros j Hj. rewrite app_nth1 by lia. specialize (Hm j ltac:(lia)). lra.
    + rewrite nth_error_app1 by lia. exact Hb.
    + intros j Hj. rewrite app_length in Hj. cbn [length] in Hj. destruct (Nat.eq_dec j (length pre)) as [->|N].
      * rewrite app_nth2 by lia. rewrite Nat.sub_diag. cbn [nth]. lra.
      * rewrite app_nth1 by lia. apply Hm. lia.
    + intros j Hj. rewrite app_nth1 by lia. apply Hl. exact Hj.
Qed.
Lemma argmax_spec l : (0 < length l)%nat -> let i := argmax l in
  (i < length l)%nat /\ (forall j, (j < length l)%nat -> nth j l 0 <= nth i l 0) /\ (forall j, (j < i)%nat -> nth j l 0 < nth i l 0).
Proof.
  destruct l as [|x l]; cbn [length]; intros H; [lia|]. cbv zeta. cbn [argmax]. change (x :: l) with ([x] ++ l). apply (argmax_from_spec l [x] 0 x).
  - reflexivity.
  - intros j Hj. cbn [length] in Hj. replace j with O by lia. cbn [nth]. lra.
  - intros j Hj. lia.
Qed.
Lemma argmax_unique l i : (i < length l)%nat -> (forall j, (j < length l)%nat -> j <> i -> nth j l 0 < nth i l 0) -> argmax l = i.
Proof.
  intros Hi H. destruct (argmax_spec l ltac:(lia)) as (A & B & _). destruct (Nat.eq_dec (argmax l) i) as [E|N]; [exact E|].
  specialize (H _ A N). specialize (B i Hi). lra.
Qed.
Lemma argmax_flat l v : (forall x, In x l -> x = v) -> argmax l = O.
Proof.
  intros H. destruct l as [|x l]; [reflexivity|]. destruct (argmax_spec (x :: l) ltac:(cbn; lia)) as (A & _ & C).
  set (i := argmax (x :: l)) in *. destruct i as [|i']; [reflexivity|]. specialize (C O ltac:(lia)).
  assert (E1 : nth 0 (x :: l) 0 = v) by (apply H, nth_In; cbn; lia). assert (E2 : nth (S i') (x :: l) 0 = v) by (apply H, nth_In; exact A). lra.
Qed.

(** ** Refined maximum *)
Lemma parabola a b : 0 < a -> 0 <= b -> - (1 / 2) < (a - b) / 2 / (a + b) <= 1 / 2.
Proof.
  intros Ha Hb. assert (D : 0 < / (a + b)) by (apply Rinv_0_lt_compat; lra).
  assert (E1 : (a - b) / 2 / (a + b) = 1 / 2 - b * / (a + b)) by (field; lra).
  assert (E2 : (a - b) / 2 / (a + b) = - (1 / 2) + a * / (a + b)) by (field; lra).
  assert (0 <= b * / (a + b)) by (apply Rmult_le_pos; lra). assert (0 < a * / (a + b)) by (apply Rmult_lt_0_compat; lra). lra.
Qed.
Lemma peak_spec l : (0 < length l)%nat -> exists r i b, peak l = Ok (r, b) /\ (i < length l)%nat /\
  (forall j, (j < length l)%nat -> nth j l 0 <= nth i l 0) /\ (forall j, (j < i)%nat -> nth j l 0 < nth i l 0) /\
  (if b then (0 < i < length l - 1)%nat /\ INR i - 1 / 2 < r <= INR i + 1 / 2
   else (i = 0 \/ i = length l - 1)%nat /\ r = INR i).
Proof.
  intros H. destruct (argmax_spec l H) as (A & B & C). unfold peak. cbv zeta. set (i := argmax l) in *.
  destruct (Nat.eqb i 0 || Nat.eqb i (length l - 1)) eqn:E.
  - exists (INR i), i, false. repeat (split; [reflexivity || assumption|]). split; [|reflexivity].
    apply orb_prop in E as [E|E]; apply Nat.eqb_eq in E; lia.
  - apply orb_false_elim in E as [E1 E2]. apply Nat.eqb_neq in E1, E2.
    pose proof (C (i - 1)%nat ltac:(lia)) as P1. pose proof (B (i + 1)%nat ltac:(lia)) as P2.
    destruct (Req_EM_T _ 0) as [Z|Z]; [lra|].
    eexists _, i, true. split; [reflexivity|]. repeat (split; [assumption|]). split; [lia|].
    pose proof (parabola (nth i l 0 - nth (i - 1) l 0) (nth i l 0 - nth (i + 1) l 0) ltac:(lra) ltac:(lra)) as Q.
    replace ((nth i l 0 - nth (i - 1) l 0 - (nth i l 0 - nth (i + 1) l 0)) / 2 / (nth i l 0 - nth (i - 1) l 0 + (nth i l 0 - nth (i + 1) l 0)))
      with ((nth (i + 1) l 0 - nth (i - 1) l 0) / 2 / (2 * nth i l 0 - nth (i + 1) l 0 - nth (i - 1) l 0)) in Q by (field; lra). lra.
Qed.
Lemma peak_range l : (0 < length l)%nat -> exists r b, peak l = Ok (r, b) /\ 0 <= r <= INR (length l - 1).
Proof.
  intros H. destruct (peak_spec l H) as (r & i & b & E & Hi & _ & _ & S). exists r, b. split; [exact E|].
  assert (I0 : 0 <= INR i) by apply pos_INR. assert (I1 : INR i <= INR (length l - 1)) by (apply le_INR; lia).
  destruct b.
  - destruct S as [S1 S2]. assert (INR 1 <= INR i) by (apply le_INR; lia). assert (INR (i + 1) <= INR (length l - 1)) by (apply le_INR; lia).
    rewrite plus_INR in H1. cbn [INR] in *. lra.
  - destruct S as [_ ->]. lra.
Qed.
Lemma peak_flat l v : (forall x, In x l -> x = v) -> peak l = Ok (0, false).
Proof. intros H. unfold peak. rewrite (argmax_flat l v H). reflexivity. Qed.

(** ** Runs *)
Section Runs.
Variable c : config.
Lemma updates_app tdoa : forall a s b, updates c tdoa s (a ++ b) = (do s' <- updates c tdoa s a; updates c tdoa s' b).
Proof. induction a as [|x a IH]; intros s b; cbn [updates app bind]; [reflexivity|]. destruct (update c (fst x) (snd x) tdoa s); cbn [bind]; [apply IH|reflexivity]. Qed.

Hypothesis Hp : (0 < ups c)%nat.
Lemma sro_of_range g : exists o, sro_of c g = Ok o /\
  - INR (lambda c) / INR (b_samples c) * 10 ^ 6 <= o <= (INR (lambda c) + 1 - / INR (ups c)) / INR (b_samples c) * 10 ^ 6.
Proof.
  unfold sro_of. set (l := map (upsampled c (lambda c) g) (seq 0 ((2 * lambda c + 1) * ups c))).
  assert (Hl : length l = ((2 * lambda c + 1) * ups c)%nat) by (unfold l; rewrite map_length, seq_length; reflexivity).
  destruct (peak_range l) as (r & b & E & R0 & R1); [rewrite Hl; lia|]. rewrite E. cbn [bind fst]. eexists; split; [reflexivity|].
  assert (P : 0 < INR (ups c)) by (apply lt_0_INR; exact Hp). assert (Pi : 0 < / INR (ups c)) by (apply Rinv_0_lt_compat; exact P).
  rewrite Hl in R1. rewrite minus_INR in R1 by lia. rewrite mult_INR, plus_INR, mult_INR in R1. cbn [INR] in R1.
  assert (T0 : 0 <= r / INR (ups c)) by (apply Rmult_le_pos; lra).
  assert (T1 : r / INR (ups c) <= 2 * INR (lambda c) + 1 - / INR (ups c)).
  { replace (2 * INR (lambda c) + 1 - / INR (ups c)) with (((1 + 1) * INR (lambda c) + 1) * INR (ups c) * / INR (ups c) - 1 * / INR (ups c)) by (field; lra).
    rewrite <- Rmult_minus_distr_r. apply Rmult_le_compat_r; lra. }
  assert (BI : 0 <= / INR (b_samples c)). { destruct (Rle_lt_or_eq_dec 0 (INR (b_samples c)) (pos_INR _)) as [Q|Q]; [left; apply Rinv_0_lt_compat; exact Q|]. rewrite <- Q, Rinv_0. lra. }
  unfold Rdiv in *. split; (apply Rmult_le_compat_r; [lra|]; apply Rmult_le_compat_r; [exact BI|]; lra).
Qed.
Lemma sto_of_range tdoa g : exists d, sto_of c tdoa g = Ok d /\
  (- INR (upsilon c) <= d <= INR (upsilon c) \/ - INR (upsilon c) <= d - tdoa * INR (fs c) <= INR (upsilon c)).
Proof.
  unfold sto_of. set (l := map _ _). assert (Hl : length l = (2 * upsilon c + 1)%nat) by (unfold l; rewrite map_length, seq_length; reflexivity).
  destruct (peak_range l) as (r & b & E & R0 & R1); [rewrite Hl; lia|]. rewrite E. cbn [bind fst snd]. eexists; split; [reflexivity|].
  rewrite Hl in R1. replace (2 * upsilon c + 1 - 1)%nat with (2 * upsilon c)%nat in R1 by lia. rewrite mult_INR in R1. cbn [INR] in R1.
  destruct b; [right|left]; lra.
Qed.
Hypothesis Hl : (lambda c < half c)%nat.
Lemma updates_total tdoa bufs : exists s, updates c tdoa (st0 c) bufs = Ok s /\ ell s = S (length bufs) /\ started s = Nat.ltb 0 (length bufs) /\
  length (cont s) = cont_frames c.
Proof.
  induction bufs as [|b bufs IH] using rev_ind; [exists (st0 c); cbn; rewrite repeat_length; auto|].
  destruct IH as (s & E & EL & ST & CL). rewrite updates_app, E. cbn [bind updates].
  assert (LC : forall x : nat -> cx, length (tl (cont s) ++ [x]) = cont_frames c).
  { intros x. rewrite app_length. cbn [length]. assert (0 < cont_frames c)%nat by (unfold cont_frames; lia).
    destruct (cont s); cbn [tl length] in *; lia. }
  rewrite app_length. cbn [length]. replace (Nat.ltb 0 (length bufs + 1)) with true by (symmetry; apply Nat.ltb_lt; lia). unfold update. cbv zeta.
  destruct (Nat.ltb (ell s) (ell_corr c)). { eexists; split; [reflexivity|]. cbn [Phat.ell Phat.started Phat.cont]. split; [lia|]. split; [reflexivity|apply LC]. }
  replace (Nat.leb (half c) (lambda c)) with false by (symmetry; apply Nat.leb_gt; exact Hl).
  destruct (Nat.ltb (ell s) (ell_est c)). { eexists; split; [reflexivity|]. cbn [Phat.ell Phat.started Phat.cont]. split; [lia|]. split; [reflexivity|apply LC]. }
  match goal with |- context [sro_of c ?g] => destruct (sro_of_range g) as (o & EO & _) end. rewrite EO. cbn [bind].
  match goal with |- context [sto_of c tdoa ?g] => destruct (sto_of_range tdoa g) as (d & ED & _) end. rewrite ED. cbn [bind].
  eexists; split; [reflexivity|]. cbn [Phat.ell Phat.started Phat.cont]. split; [lia|]. split; [reflexivity|apply LC].
Qed.
End Runs.
