(** Facts about the evaluation of estimates of sampling-rate offsets. *)
From Verif Require Import Base ChunkSpec DemoEval ChunkFacts.
From Coq Require Import Reals Lra.
Local Open Scope R_scope.

Lemma sq_pos x : 0 <= x ^ 2.
Proof. nra. Qed.
Lemma mse_pos est d k : 0 <= mse est d k.
Proof. induction k as [|k IH]; cbn [mse]; [apply sq_pos|]. pose proof (sq_pos (est (S k) - d)). lra. Qed.
Lemma abs_sq x b : Rabs x <= b -> x ^ 2 <= b ^ 2.
Proof. intros H. rewrite <- (pow2_abs x). pose proof (Rabs_pos x). nra. Qed.
Lemma abs_sq_ge x b : 0 <= b -> b <= Rabs x -> b ^ 2 <= x ^ 2.
Proof. intros Hb H. rewrite <- (pow2_abs x). nra. Qed.

Lemma sumR_S_r n f : sumR (S n) f = sumR n f + f n.
Proof. reflexivity. Qed.
Lemma mse_weights est d k : mse est d k = (9 / 10) ^ k * (est O - d) ^ 2 + sumR k (fun i => 1 / 10 * (9 / 10) ^ i * (est (k - i)%nat - d) ^ 2).
Proof.
  induction k as [|k IH]; [cbn; lra|]. rewrite sumR_S_l. cbn [mse]. rewrite IH. rewrite Nat.sub_0_r.
  assert (G : sumR k (fun i => 1 / 10 * (9 / 10) ^ S i * (est (S k - S i)%nat - d) ^ 2) = 9 / 10 * sumR k (fun i => 1 / 10 * (9 / 10) ^ i * (est (k - i)%nat - d) ^ 2)).
  { generalize k at 1 3. intros m. induction m as [|m IHm]; [cbn; lra|]. rewrite (sumR_S_r m), IHm. cbn [sumR]. rewrite Nat.sub_succ. rewrite <- tech_pow_Rmult. ring. }
  rewrite G. rewrite <- tech_pow_Rmult. cbn [pow]. ring.
Qed.
Lemma last_above_spec est d n : match last_above est d n with
  | None => forall k, (k < n)%nat -> rmse est d k <= 1
  | Some j => (j < n)%nat /\ 1 < rmse est d j /\ forall k, (j < k < n)%nat -> rmse est d k <= 1
  end.
Proof.
  induction n as [|n IH]; cbn [last_above]; [intros k Hk; lia|]. destruct (Rlt_dec 1 (rmse est d n)) as [H|H].
  - split; [lia|]. split; [exact H|]. intros k Hk. lia.
  - destruct (last_above est d n) as [j|].
    + destruct IH as (I1 & I2 & I3). split; [lia|]. split; [exact I2|]. intros k Hk. destruct (Nat.eq_dec k n) as [->|]; [lra | apply I3; lia].
    + intros k Hk. destruct (Nat.eq_dec k n) as [->|]; [lra | apply IH; lia].
Qed.
