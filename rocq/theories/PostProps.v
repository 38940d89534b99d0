(** Properties of the dynamic-metric chunks (C49) and of the 16-bit export (C50). *)
From Verif Require Import Base BaseFacts Post PostFacts.
From Coq Require Import QArith Qround Qabs Lqa.
Local Open Scope Z_scope.

(** ** C49 *)
(** Chunk [c] starts at the integer part of [c] steps, all chunks are inside the signal,
    have the chunk size, and the next one would not fit. *)
Theorem C49_chunks_inside len N ovlp l : 0 < N -> 0 <= len -> (ovlp < 1)%Q -> dyn_chunks len N ovlp = Ok l ->
  let step := (inject_Z N * (1 - ovlp))%Q in
  l = map (fun c => (Qfloor (inject_Z (Z.of_nat c) * step), Qfloor (inject_Z (Z.of_nat c) * step) + N)) (seq 0 (List.length l)) /\
  (forall i0 i1, In (i0, i1) l -> 0 <= i0 /\ i1 <= len) /\ len < Qfloor (inject_Z (Z.of_nat (List.length l)) * step) + N.
Proof. apply dyn_chunks_ok. Qed.
(** Starts advance by the step to within one sample; by exactly the step if it is whole. *)
Theorem C49_steps N ovlp (c : Z) : 0 < N -> (ovlp < 1)%Q ->
  let step := (inject_Z N * (1 - ovlp))%Q in
  let start (c : Z) := Qfloor (inject_Z c * step) in
  (step - 1 < inject_Z (start (c + 1)%Z - start c)%Z < step + 1)%Q /\ (forall z, (step == inject_Z z)%Q -> start (c + 1) - start c = z).
Proof.
  intros HN Ho step start. pose proof (iz_pos N HN). split; [apply floor_step; unfold step; nra|]. intros z Hz. unfold start. rewrite !(floor_step_int step _ z Hz). ring.
Qed.
(** The loop always ends. *)
Theorem C49_terminates len N ovlp : 0 < N -> 0 <= len -> dyn_chunks len N ovlp <> Err OutOfFuel.
Proof. apply dyn_chunks_terminates. Qed.
(** It succeeds for an overlap in [0, 1) if the step is a whole number of samples or the
    overlap at least one sample. *)
Theorem C49_succeeds len N ovlp : 0 < N -> 0 <= len -> (0 <= ovlp < 1)%Q ->
  (exists z, inject_Z N * (1 - ovlp) == inject_Z z)%Q \/ (1 <= inject_Z N * ovlp)%Q -> exists l, dyn_chunks len N ovlp = Ok l.
Proof. apply dyn_chunks_succeeds. Qed.
(** With a smaller overlap the last chunk has no place in the result arrays. *)
Theorem C49_small_overlap_refuted : exists len N ovlp, 0 < N /\ 0 <= len /\ (0 <= ovlp < 1)%Q /\ dyn_chunks len N ovlp = Err IndexError.
Proof. exists 19, 10, (1 # 100). repeat split; discriminate || reflexivity. Qed.
(** The result arrays can have more entries than there are chunks (the rest stays zero)
    and than there are time stamps. *)
Theorem C49_entries_refuted : exists len fs duration ovlp l n, chunk_size duration fs = 16000 /\ dyn_chunks len 16000 ovlp = Ok l /\
  n_chunks len 16000 (inject_Z 16000 * (1 - ovlp)) = Ok n /\ List.length l = 5%nat /\ n_stamps len fs duration ovlp = 5 /\ n = 6.
Proof. exists 48000, 16000%Q, 1%Q, (1 # 2). eexists. exists 6. vm_compute. repeat split. Qed.

Example C49_example : dyn_chunks 20 8 (1 # 2) = Ok [(0, 8); (4, 12); (8, 16); (12, 20)] /\ dyn_chunks 23 10 (3 # 4) = Ok [(0, 10); (2, 12); (5, 15); (7, 17); (10, 20); (12, 22)]
  /\ (exists z, inject_Z 8 * (1 - (1 # 2)) == inject_Z z)%Q /\ (1 <= inject_Z 10 * (3 # 4))%Q.
Proof. repeat split; try (vm_compute; reflexivity). - exists 4. reflexivity. - vm_compute. discriminate. Qed.

(** ** C50 *)
(** If the maximum is positive and no sample below minus twice the maximum: every sample
    becomes its scaled value truncated towards zero, within 16 bits, with its sign, and
    order is kept. *)
Theorem C50_normalised x m : qmax x = Ok m -> (0 < m)%Q -> (forall a, In a x -> (- (2 * m) <= a)%Q) ->
  exists y, normalize_toint16 x = Ok y /\ List.length y = List.length x /\
  (forall i, (i < List.length x)%nat -> let a := nth i x 0%Q in let v := nth i y 0 in let e := (32767 * a / (2 * m))%Q in
     -32767 <= v <= 16383 /\ (Qabs (inject_Z v) <= Qabs e)%Q /\ (Qabs e < Qabs (inject_Z v) + 1)%Q /\ ((0 <= a)%Q -> 0 <= v) /\ ((a <= 0)%Q -> v <= 0)) /\
  (forall i j, (i < List.length x)%nat -> (j < List.length x)%nat -> (nth i x 0 <= nth j x 0)%Q -> nth i y 0 <= nth j y 0).
Proof.
  intros Hm Hp Hlo. destruct (qmax_spec x m Hm) as [_ Hhi]. unfold normalize_toint16. rewrite Hm. cbn [bind].
  destruct (Qeq_bool m 0) eqn:E0; [apply Qeq_bool_iff in E0; lra|]. eexists. split; [reflexivity|]. split; [apply map_length|].
  assert (Nth : forall i, (i < List.length x)%nat -> nth i (map (fun a => to_int16 (inject_Z 32767 * a / m * (1 # 2))) x) 0 = py_int (scaled m (nth i x 0%Q)) /\ -32767 <= py_int (scaled m (nth i x 0%Q)) <= 16383).
  { intros i Hi. pose proof (nth_In x 0%Q Hi) as Hin. rewrite (nth_indep _ 0 (to_int16 (inject_Z 32767 * 0%Q / m * (1 # 2)))) by (rewrite map_length; exact Hi).
    rewrite (map_nth (fun a => to_int16 (inject_Z 32767 * a / m * (1 # 2)))). apply (to_int16_ok m); [exact Hp|]. split; [apply Hlo | apply Hhi]; exact Hin. }
  split.
  - intros i Hi. set (a := nth i x 0%Q). set (e := (32767 * a / (2 * m))%Q). match goal with |- context [nth i ?l 0] => set (v := nth i l 0) end. cbv zeta. destruct (Nth i Hi) as [N1 N2]. fold a in N1, N2. fold v in N1. rewrite N1. split; [exact N2|].
    assert (Ee : (e == scaled m a)%Q) by (unfold e, scaled; change (inject_Z 32767) with 32767%Q; field; lra).
    destruct (py_int_spec (scaled m a)) as (P1 & P2 & P3 & P4). destruct (scaled_sign m a Hp) as [S1 S2]. rewrite Ee. split; [exact P1|]. split; [exact P2|]. split; intros H; [apply P3, S1, H | apply P4, S2, H].
  - intros i j Hi Hj H. destruct (Nth i Hi) as [-> _]. destruct (Nth j Hj) as [-> _]. apply py_int_mono, scaled_mono; assumption.
Qed.
(** A larger negative peak wraps around and comes out positive; a signal without
    positive samples comes out with its sign flipped. *)
Theorem C50_negative_peak_refuted : exists x y, normalize_toint16 x = Ok y /\ nth 1 x 0%Q = (-3)%Q /\ nth 1 y 0 = 16386.
Proof. exists [1%Q; (-3)%Q]. eexists. vm_compute. repeat split. Qed.
Theorem C50_all_negative_refuted : exists x y, normalize_toint16 x = Ok y /\ (forall a, In a x -> (a < 0)%Q) /\ forall v, In v y -> 0 < v.
Proof.
  exists [(-1)%Q; (-2)%Q]. eexists. split; [vm_compute; reflexivity|]. split.
  - intros a [<-|[<-|[]]]; reflexivity.
  - intros v [<-|[<-|[]]]; reflexivity.
Qed.

Example C50_example : normalize_toint16 [1 # 2; (-1) # 4; (-1) # 1; 0%Q] = Ok [16383; -8191; -32767; 0] /\ qmax [1 # 2; (-1) # 4; (-1) # 1; 0%Q] = Ok (1 # 2)
  /\ forall a, In a [1 # 2; (-1) # 4; (-1) # 1; 0%Q] -> (- (2 * (1 # 2)) <= a)%Q.
Proof. split; [vm_compute; reflexivity|]. split; [reflexivity|]. intros a [<-|[<-|[<-|[<-|[]]]]]; vm_compute; discriminate. Qed.

Print Assumptions C49_chunks_inside.
Print Assumptions C49_steps.
Print Assumptions C49_terminates.
Print Assumptions C49_succeeds.
Print Assumptions C49_small_overlap_refuted.
Print Assumptions C49_entries_refuted.
Print Assumptions C50_normalised.
Print Assumptions C50_negative_peak_refuted.
Print Assumptions C50_all_negative_refuted.
