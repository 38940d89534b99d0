(** Correlation matrices and network-wide filters of batch DANSE. *)
From Verif Require Import Base BaseFacts Cx CxFacts Scm ScmSpec ScmFacts ScmFacts2 Ext BatchSig BatchSigSpec BatchSigFacts.
From Coq Require Import Reals Lra.
Local Open Scope R_scope.
Local Open Scope cx_scope.

Lemma filter_map_comm_S (p : nat -> bool) l : filter p (map S l) = map S (filter (fun t => p (S t)) l).
Proof. induction l as [|a l IH]; [reflexivity|]. cbn. rewrite IH. destruct (p (S a)); reflexivity. Qed.
Lemma count_kind v b n : (n <= length v)%nat -> count_occ Bool.bool_dec (firstn n v) b = n_kind v b n.
Proof.
  unfold n_kind. revert n. induction v as [|a v IH]; intros [|n] H; try reflexivity; [cbn in H; lia|].
  cbn [firstn count_occ seq filter]. rewrite <- seq_shift, filter_map_comm_S. cbn in H.
  assert (E : forall t, is_kind (a :: v) b (S t) = is_kind v b t) by reflexivity.
  rewrite (filter_ext _ _ E). unfold is_kind at 1. cbn [nth].
  destruct (Bool.bool_dec a b) as [->|N].
  - rewrite Bool.eqb_reflx. cbn [length]. rewrite map_length, IH by lia. reflexivity.
  - apply Bool.eqb_false_iff in N. rewrite N, map_length, IH by lia. reflexivity.
Qed.

(** Batch matrices as averages. *)
Lemma batch_rmat (x : nat -> stft) v T : (T <= length v)%nat -> (0 < n_kind v true T)%nat -> (0 < n_kind v false T)%nat ->
  forall f i j, fst (or_zero (covmats_batch (map x (seq 0 T)) v)) f i j = rmat v T (fun t c => x t f c) true i j /\
                snd (or_zero (covmats_batch (map x (seq 0 T)) v)) f i j = rmat v T (fun t c => x t f c) false i j.
Proof.
  intros HT Ht Hf f i j. unfold covmats_batch. rewrite map_length, seq_length.
  assert (E : (if Nat.ltb T (length v) then firstn T v else v) = firstn T v).
  { destruct (Nat.ltb_spec T (length v)); [reflexivity|]. rewrite firstn_all2 by lia. reflexivity. }
  rewrite E. assert (L : length (firstn T v) = length (map x (seq 0 T))) by (rewrite firstn_length, map_length, seq_length; lia).
  rewrite L, map_length, seq_length, Nat.eqb_refl.
  assert (A := mean_outer_sum true _ _ L). assert (B := mean_outer_sum false _ _ L).
  rewrite !count_kind in A, B by exact HT.
  destruct (mean_outer (select true _ _)) as [r1|]; [|lia]. destruct (mean_outer (select false _ _)) as [r0|]; [|lia].
  destruct A as [_ A]. destruct B as [_ B]. cbn [or_zero fst snd]. 
  assert (G : forall b r, (0 < n_kind v b T)%nat -> cr (INR (n_kind v b T)) * r =
     csum (length (map x (seq 0 T))) (fun t => if Bool.eqb (nth t (firstn T v) (negb b)) b then nth t (map x (seq 0 T)) (fun _ _ => czero) f i * conj (nth t (map x (seq 0 T)) (fun _ _ => czero) f j) else czero) ->
     r = rmat v T (fun t c => x t f c) b i j).
  { intros b r Hn H. unfold rmat, avg_over. rewrite map_length, seq_length in H.
    rewrite (csum_ext T _ (fun t => if is_kind v b t then x t f i * conj (x t f j) else czero)) in H.
    - rewrite <- H. transitivity (cr (/ INR (n_kind v b T) * INR (n_kind v b T)) * r); [|rewrite cr_mul; ring].
      rewrite Rinv_l; [change (cr 1) with cone; ring|]. apply not_0_INR. lia.
    - intros t Htt. rewrite nth_firstn_lt by exact Htt. unfold is_kind.
      assert (N : nth t (map x (seq 0 T)) (fun _ _ => czero) = x t).
      { rewrite (nth_indep _ _ (x 0%nat)) by (rewrite map_length, seq_length; exact Htt). rewrite (map_nth x), seq_nth by exact Htt. reflexivity. }
      rewrite N. reflexivity. }
  split; [apply (G true (r1 f i j) Ht (A f i j)) | apply (G false (r0 f i j) Hf (B f i j))].
Qed.

Lemma index_of_spec q l i : NoDup l -> (index_of q l = Some i <-> nth_error l i = Some q).
Proof.
  revert i. induction l as [|a l IH]; intros i HN; cbn [index_of].
  - split; [discriminate | destruct i; discriminate].
  - inversion HN as [|? ? Ha HN']; subst. destruct (Nat.eqb_spec a q) as [->|Hne].
    + split; [intros H; injection H as <-; reflexivity|]. destruct i as [|i]; [reflexivity|]. cbn. intros H. apply nth_error_In in H. contradiction.
    + destruct i as [|i]; cbn [nth_error].
      * split; [destruct (index_of q l); discriminate|]. congruence.
      * rewrite <- IH by exact HN'. destruct (index_of q l); cbn; split; intros H; congruence.
Qed.
Lemma index_of_none q l : index_of q l = None -> ~ In q l.
Proof.
  induction l as [|a l IH]; cbn; [auto|]. destruct (Nat.eqb_spec a q); [discriminate|].
  destruct (index_of q l); [discriminate|]. intros _ [H|H]; [congruence | apply IH; auto].
Qed.
Lemma index_of_lt q l i : index_of q l = Some i -> (i < length l)%nat.
Proof.
  revert i. induction l as [|a l IH]; cbn; intros i; [discriminate|]. destruct (Nat.eqb a q); [intros H; injection H as <-; lia|].
  destruct (index_of q l) as [k|]; [|discriminate]. intros H. injection H as <-. specialize (IH k eq_refl). lia.
Qed.
Lemma csum_zero n f : (forall i, (i < n)%nat -> f i = czero) -> csum n f = czero.
Proof. intros H. rewrite (csum_ext n f (fun _ => czero) H). apply csum_0. Qed.
(** sum over the positions of a list / over the members of a range *)
Lemma csum_index nn l (g : nat -> nat -> cx) : NoDup l -> (forall q, In q l -> (q < nn)%nat) ->
  csum nn (fun q => match index_of q l with Some i => g i q | None => czero end) = csum (length l) (fun i => g i (nth i l O)).
Proof.
  intros HN Hl.
  rewrite (csum_ext (length l) _ (fun i => csum nn (fun q => if Nat.eqb q (nth i l O) then g i q else czero))).
  - rewrite csum_swap. apply csum_ext. intros q Hq. destruct (index_of q l) as [i|] eqn:E.
    + symmetry. rewrite (csum_single (length l) _ i).
      * apply (index_of_spec q l i HN) in E. apply nth_error_nth with (d := O) in E. rewrite E, Nat.eqb_refl. reflexivity.
      * apply index_of_lt in E. exact E.
      * intros j Hj Hne. destruct (Nat.eqb_spec q (nth j l O)) as [->|]; [|reflexivity].
        apply (index_of_spec _ l i HN) in E. exfalso. apply Hne.
        apply (proj1 (NoDup_nth_error l) HN); [exact Hj|]. rewrite E. apply nth_error_nth'. exact Hj.
    + symmetry. apply csum_zero. intros i Hi. destruct (Nat.eqb_spec q (nth i l O)) as [->|]; [|reflexivity].
      exfalso. apply (index_of_none _ _ E). apply nth_In. exact Hi.
  - intros i Hi. symmetry. rewrite (csum_single nn _ (nth i l O)).
    + rewrite Nat.eqb_refl. reflexivity.
    + apply Hl. apply nth_In. exact Hi.
    + intros q _ Hq. destruct (Nat.eqb_spec q (nth i l O)); [contradiction | reflexivity].
Qed.
Lemma csum_split nn k (h : nat -> cx) : (k < nn)%nat -> csum nn h = h k + csum nn (fun q => if Nat.eqb q k then czero else h q).
Proof.
  intros Hk. rewrite (csum_ext nn h (fun q => (if Nat.eqb q k then h q else czero) + (if Nat.eqb q k then czero else h q))).
  - rewrite csum_add. f_equal. rewrite (csum_single nn _ k Hk); [rewrite Nat.eqb_refl; reflexivity|].
    intros i _ Hi. destruct (Nat.eqb_spec i k); [contradiction | reflexivity].
  - intros q _. destruct (Nat.eqb q k); ring.
Qed.

Section Net.
  Variables (nn : nat) (ms : nat -> nat) (ys : nat -> list stft) (vads : nat -> list bool) (nbrs : nat -> list nat) (ti : bool) (ref : nat).
  Notation y f := (fun q t m => frame_at (ys q) t f m).
  Notation yt := (y_tilde nn ms ys nbrs ti).
  Notation dimk k := (dim ms nbrs ti k).

  (** External filters as a function of node and coefficient. *)
  Definition ext_of (es : list coefs) (f : nat) : nat -> nat -> cx := fun q m => nth q es (fun _ _ => czero) f m.

  Lemma netwide_output es k f w t : (k < nn)%nat -> good_nbrs nn nbrs k ->
    output nn ms (y f) (netwide ti ms nbrs k w (ext_of es f)) t = fout (dimk k) (fun t c => yt es k t f c) w t.
  Proof.
    intros Hk (HN & Hl & Hkk). unfold output. rewrite (csum_split nn k) by exact Hk. unfold fout, dim. rewrite csum_app. f_equal.
    - apply csum_ext. intros m Hm. unfold netwide, y_tilde. rewrite Nat.eqb_refl. destruct (Nat.ltb_spec m (ms k)); [reflexivity | lia].
    - destruct ti eqn:Eti.
      + cbn [csum]. unfold y_tilde. destruct (Nat.ltb_spec (ms k + 0) (ms k)); [lia|]. rewrite Nat.add_0_r.
        transitivity (conj (w (ms k)) * csum nn (fun q => if Nat.eqb q k then czero else fused ms ys (ti_fusion ms (nth q es (fun _ _ => czero)) q) q t f)); [|ring].
        rewrite <- csum_scale. apply csum_ext. intros q _. destruct (Nat.eqb_spec q k) as [->|Hq]; [ring|].
        unfold fused. rewrite <- csum_scale. apply csum_ext. intros m _. unfold netwide. rewrite (proj2 (Nat.eqb_neq q k) Hq).
        unfold ti_fusion, ext_of. rewrite conj_mul. ring.
      + transitivity (csum nn (fun q => match index_of q (nbrs k) with Some i => conj (w (ms k + i)%nat) * fused ms ys (nth q es (fun _ _ => czero)) q t f | None => czero end)).
        * apply csum_ext. intros q _. destruct (Nat.eqb_spec q k) as [->|Hq].
          -- destruct (index_of k (nbrs k)) as [i|] eqn:E; [|reflexivity]. apply (index_of_spec _ _ _ HN) in E. apply nth_error_In in E. contradiction.
          -- destruct (index_of q (nbrs k)) as [i|] eqn:E.
             ++ unfold fused. rewrite <- csum_scale. apply csum_ext. intros m _. unfold netwide. rewrite (proj2 (Nat.eqb_neq q k) Hq), E.
                unfold ext_of. rewrite conj_mul. ring.
             ++ apply csum_zero. intros m _. unfold netwide. rewrite (proj2 (Nat.eqb_neq q k) Hq), E. apply cx_eq; cbn; ring.
        * rewrite csum_index by assumption. apply csum_ext. intros i Hi. unfold y_tilde.
          destruct (Nat.ltb_spec (ms k + i) (ms k)); [lia|]. replace (ms k + i - ms k)%nat with i by lia.
          rewrite (nth_error_nth' _ O Hi). reflexivity.
  Qed.
End Net.
