From Coq Require Import QArith Qround Reals Lra Lqa Qreals.
From Verif Require Import Base BaseFacts Level LevelSpec RandSig RandSigSpec RandSigFacts.
Local Open Scope R_scope.

Lemma nth_map_lt' {A B} (f : A -> B) l i d d' : (i < length l)%nat -> nth i (map f l) d' = f (nth i l d).
Proof. intros H. rewrite nth_indep with (d' := f d) by (rewrite map_length; exact H). apply map_nth. Qed.

(** every impulse response: length and values *)
Lemma rir_ok p fs us : known (ir_distribution p) -> (0 <= ir_duration p * fs)%Q -> (ir_decay p = ImmediateDecay -> 1 <= ir_duration p * fs)%Q ->
  Q2R (ir_tau p) <> 0 -> Q2R fs <> 0 ->
  exists r, random_rir p fs us = Ok r /\ length r = Z.to_nat (Qfloor (ir_duration p * fs)) /\ forall t, (t < length r)%nat -> nth t r 0 = ir_value p fs us t.
Proof.
  intros Hd Hl Hi Ht Hf. unfold random_rir. rewrite (int_of_nonneg _ Hl). assert (F := floor_nonneg _ Hl).
  destruct (Z.ltb_spec (Qfloor (ir_duration p * fs)) 0); [lia|]. rewrite (draw_known _ _ _ _ _ Hd). cbn [bind]. unfold ir_value.
  set (x := fun i => drawn (ir_distribution p) (ir_min p) (ir_max p) (us i)). set (L := Z.to_nat (Qfloor (ir_duration p * fs))) in *.
  destruct (ir_decay p) eqn:E.
  - eexists. split; [reflexivity|]. split; [rewrite map_length, seq_length; reflexivity|]. rewrite map_length, seq_length. intros t H0. apply (nth_map_seq0 x), H0.
  - eexists. split; [reflexivity|]. rewrite map_length, combine_length, map_length, !seq_length, Nat.min_id. split; [reflexivity|]. intros t H0.
    rewrite nth_indep with (d' := (fun q => fst q * exp (- INR (snd q) / Q2R (ir_tau p * fs))) (0, 0%nat)) by (rewrite map_length, combine_length, map_length, !seq_length; lia).
    rewrite (map_nth (fun q => fst q * exp (- INR (snd q) / Q2R (ir_tau p * fs)))), combine_nth by (rewrite map_length, !seq_length; reflexivity). cbn [fst snd].
    rewrite (nth_map_seq0 x _ _ H0), seq_nth by exact H0. cbn [Nat.add]. f_equal. f_equal. rewrite Q2R_mult. field. split; assumption.
  - specialize (Hi eq_refl). assert (1 <= Qfloor (ir_duration p * fs))%Z by (apply floor_inj; exact Hi).
    destruct L as [|L'] eqn:EL; [lia|]. cbn [seq map]. eexists. split; [reflexivity|]. cbn [length]. rewrite !map_length, seq_length. split; [reflexivity|].
    intros [|t] H1; [reflexivity|]. cbn [nth]. rewrite (nth_map_lt' _ _ _ 0) by (rewrite map_length, seq_length; lia). reflexivity.
Qed.

Lemma mapM_seq_ok {B} (P : nat -> B -> Prop) (f : nat -> res B) n : (forall i, (i < n)%nat -> exists b, f i = Ok b /\ P i b) ->
  exists l, mapM f (seq 0 n) = Ok l /\ length l = n /\ forall i d, (i < n)%nat -> P i (nth i l d).
Proof.
  intros H. assert (G : forall s m, (s + m <= n)%nat -> exists l, mapM f (seq s m) = Ok l /\ length l = m /\ forall i d, (i < m)%nat -> P (s + i)%nat (nth i l d)).
  { intros s m. revert s. induction m as [|m IH]; intros s Hs; [exists []; cbn; split; [reflexivity|split; [reflexivity|lia]]|].
    destruct (H s ltac:(lia)) as (b & Eb & Pb). destruct (IH (S s) ltac:(lia)) as (l & El & Ll & Pl). exists (b :: l). cbn [seq mapM]. rewrite Eb. cbn [bind]. rewrite El. cbn [bind].
    split; [reflexivity|]. split; [cbn [length]; lia|]. intros [|i] d Hi; cbn [nth]; [rewrite Nat.add_0_r; exact Pb|]. replace (s + S i)%nat with (S s + i)%nat by lia. apply Pl. lia. }
  apply (G 0%nat n). lia.
Qed.

Section Shape.
Variables (p : rir_params) (fs : Q) (sensors : list nat) (n_d n_n : nat) (ud un : nat -> nat -> nat -> nat -> R).
Hypothesis Hd : known (ir_distribution p).
Hypothesis Hl : (0 <= ir_duration p * fs)%Q.
Hypothesis Hi : (ir_decay p = ImmediateDecay -> 1 <= ir_duration p * fs)%Q.
Hypothesis Ht : Q2R (ir_tau p) <> 0.
Hypothesis Hf : Q2R fs <> 0.
Definition rir_is (us : nat -> R) (r : list R) : Prop :=
  length r = Z.to_nat (Qfloor (ir_duration p * fs)) /\ forall t, (t < length r)%nat -> nth t r 0 = ir_value p fs us t.
Definition rirs_are (nodes n : nat) (u : nat -> nat -> nat -> nat -> R) (irs : list (list (list (list R)))) : Prop :=
  length irs = nodes /\ forall k, (k < nodes)%nat -> length (nth k irs []) = nth k sensors 0%nat /\
  forall m, (m < nth k sensors 0)%nat -> length (nth m (nth k irs []) []) = n /\
  forall j, (j < n)%nat -> rir_is (u k m j) (nth j (nth m (nth k irs []) []) []).
Lemma rirs_ok n us : exists l, random_rirs p n fs us = Ok l /\ length l = n /\ forall j d, (j < n)%nat -> rir_is (us j) (nth j l d).
Proof.
  apply (mapM_seq_ok (fun j => rir_is (us j))). intros j _. destruct (rir_ok p fs (us j) Hd Hl Hi Ht Hf) as (r & E & L & V). exists r. split; [exact E|]. split; assumption.
Qed.
Lemma shape nodes : (nodes <= length sensors)%nat ->
  exists d n, random_impulse_responses p nodes sensors n_d n_n fs ud un = Ok (d, n) /\ rirs_are nodes n_d ud d /\ rirs_are nodes n_n un n.
Proof.
  intros Hn. unfold random_impulse_responses.
  set (body := fun k m => do d <- random_rirs p n_d fs (ud k m); do n <- random_rirs p n_n fs (un k m); Ok (d, n)).
  set (Pm := fun k m (dn : list (list R) * list (list R)) => (length (fst dn) = n_d /\ forall j d, (j < n_d)%nat -> rir_is (ud k m j) (nth j (fst dn) d)) /\ (length (snd dn) = n_n /\ forall j d, (j < n_n)%nat -> rir_is (un k m j) (nth j (snd dn) d))).
  assert (Bm : forall k m, exists dn, body k m = Ok dn /\ Pm k m dn).
  { intros k m. destruct (rirs_ok n_d (ud k m)) as (d & E1 & L1 & V1). destruct (rirs_ok n_n (un k m)) as (n & E2 & L2 & V2). exists (d, n). unfold body. rewrite E1. cbn [bind]. rewrite E2. cbn [bind]. split; [reflexivity|]. unfold Pm. cbn [fst snd]. auto. }
  set (Pk := fun k (a : list (list (list R)) * list (list (list R))) => exists l, a = (map fst l, map snd l) /\ length l = nth k sensors 0%nat /\ forall m d, (m < nth k sensors 0)%nat -> Pm k m (nth m l d)).
  destruct (mapM_seq_ok Pk (fun k => do mk <- get sensors k; do l <- mapM (fun m => body k m) (seq 0 mk); Ok (map fst l, map snd l)) nodes) as (l & E & L & V).
  { intros k Hk. assert (G : get sensors k = Ok (nth k sensors 0%nat)) by (unfold get; rewrite (nth_error_nth' sensors 0%nat) by lia; reflexivity).
    rewrite G. cbn [bind]. destruct (mapM_seq_ok (Pm k) (body k) (nth k sensors 0%nat) (fun m _ => Bm k m)) as (lm & Em & Lm & Vm). change (mapM (fun m => body k m)) with (mapM (body k)). rewrite Em. cbn [bind].
    eexists. split; [reflexivity|]. exists lm. split; [reflexivity|]. split; [exact Lm|exact Vm]. }
  unfold body in E. rewrite E. cbn [bind]. exists (map fst l), (map snd l). split; [reflexivity|].
  split; (split; [rewrite map_length; exact L|]); intros k Hk; destruct (V k ([], []) Hk) as (lk & El & Ll & Vl);
    rewrite (nth_map_lt' _ _ _ ([], [])) by lia; rewrite El; cbn [fst snd]; (split; [rewrite map_length; exact Ll|]); intros m Hm;
    destruct (Vl m ([], []) Hm) as [[V1 V2] [V3 V4]]; rewrite (nth_map_lt' _ _ _ ([], [])) by lia; auto.
Qed.
End Shape.

(** a response that is zero but for its first sample only scales *)
Lemma conv_head r x t : (forall i, (0 < i)%nat -> nth i r 0 = 0) -> conv_at r x t = nth 0 r 0 * nth t x 0.
Proof.
  intros H. unfold conv_at. cbn [seq map fold_right]. rewrite Nat.sub_0_r.
  assert (Z : forall l, (forall k, In k l -> (0 < k)%nat) -> fold_right Rplus 0 (map (fun k => nth k r 0 * nth (t - k) x 0) l) = 0).
  { induction l as [|k l IH]; intros Hk; [reflexivity|]. cbn [map fold_right]. rewrite IH by (intros j Hj; apply Hk; right; exact Hj). rewrite H by (apply Hk; left; reflexivity). ring. }
  rewrite Z by (intros k Hk; apply in_seq in Hk; lia). ring.
Qed.
