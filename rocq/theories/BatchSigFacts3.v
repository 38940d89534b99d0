(** Optimality of the updates of batch DANSE. *)
From Verif Require Import Base BaseFacts Cx CxFacts Scm ScmSpec ScmFacts ScmFacts2 Ext BatchSig BatchSigSpec BatchSigFacts BatchSigFacts2.
From Coq Require Import Reals Lra.
Local Open Scope R_scope.
Local Open Scope cx_scope.

Lemma solves_ext n a a' w b b' : (forall i j, (i < n)%nat -> (j < n)%nat -> a i j = a' i j) -> (forall i, (i < n)%nat -> b i = b' i) -> solves n a w b -> solves n a' w b'.
Proof.
  intros Ha Hb H i Hi. rewrite <- (Hb i Hi), <- (H i Hi). apply csum_ext. intros j Hj. rewrite (Ha i j Hi Hj). reflexivity.
Qed.

Lemma offset_S ms k : offset ms (S k) = (offset ms k + ms k)%nat.
Proof. unfold offset. rewrite seq_S, fold_left_app. reflexivity. Qed.
Lemma offset_le ms k n : (k <= n)%nat -> (offset ms k <= offset ms n)%nat.
Proof. induction 1 as [|n _ IH]; [lia|]. rewrite offset_S. lia. Qed.

Section Opt.
  Variables (nn : nat) (ms : nat -> nat) (ys : nat -> list stft) (vads : nat -> list bool) (nbrs : nat -> list nat) (ti : bool) (ref T : nat).
  Variable inv : nat -> mat -> mat.
  Hypothesis Hd : data_ok nn ms ys vads ref T.
  Notation y f := (fun q t m => frame_at (ys q) t f m).
  Notation yt := (y_tilde nn ms ys nbrs ti).
  Notation dimk k := (dim ms nbrs ti k).
  Notation cov := (tilde_covmats nn ms ys vads nbrs ti).
  Notation neww := (new_w ms nbrs ti ref inv).

  Lemma ref_dim k : (k < nn)%nat -> (ref < dimk k)%nat.
  Proof. intros Hk. destruct (Hd k Hk) as (H & _). unfold dim. lia. Qed.
  Lemma new_w_solves es k f : (k < nn)%nat -> is_inverse (dimk k) (fst (cov es k) f) (inv (dimk k) (fst (cov es k) f)) ->
    solves (dimk k) (rmat (vads k) T (fun t c => yt es k t f c) true) (neww k (cov es k) f)
      (fun i => rmat (vads k) T (fun t c => yt es k t f c) true i ref - rmat (vads k) T (fun t c => yt es k t f c) false i ref).
  Proof.
    intros Hk Hi. destruct (Hd k Hk) as (Hr & HT & Hv & H1 & H0).
    assert (S := update_w_solves _ ref _ (fst (cov es k) f) (snd (cov es k) f) (ref_dim k Hk) Hi).
    assert (E := batch_rmat (yt es k) (vads k) T Hv H1 H0 f). unfold tilde_covmats in *. rewrite HT in *.
    refine (solves_ext _ _ _ _ _ _ _ _ S).
    - intros i j _ _. apply (E i j).
    - intros i _. destruct (E i ref) as [-> ->]. reflexivity.
  Qed.
  Lemma error_netwide es k f w : (k < nn)%nat -> good_nbrs nn nbrs k ->
    error nn ms (y f) (vads k) T k ref (netwide ti ms nbrs k w (ext_of es f)) =
    est_error (vads k) T (fout (dimk k) (fun t c => yt es k t f c) w) (fun t => yt es k t f ref).
  Proof.
    intros Hk Hg. unfold error. rewrite (est_error_eq _ _ _ (fout (dimk k) (fun t c => yt es k t f c) w)).
    - f_equal. destruct (Hd k Hk) as (Hr & _). unfold y_tilde. destruct (Nat.ltb_spec ref (ms k)); [reflexivity | lia].
    - intros t _. apply netwide_output; assumption.
  Qed.
  Lemma update_optimal es k f w : (k < nn)%nat -> good_nbrs nn nbrs k -> is_inverse (dimk k) (fst (cov es k) f) (inv (dimk k) (fst (cov es k) f)) ->
    (error nn ms (y f) (vads k) T k ref (netwide ti ms nbrs k (neww k (cov es k) f) (ext_of es f)) <=
     error nn ms (y f) (vads k) T k ref (netwide ti ms nbrs k w (ext_of es f)))%R.
  Proof.
    intros Hk Hg Hi. rewrite !error_netwide by assumption. apply (normal_minimises (vads k) T (dimk k) (fun t c => yt es k t f c) ref); apply new_w_solves; assumption.
  Qed.
  Lemma output_ext f w w' t : (forall q m, (q < nn)%nat -> (m < ms q)%nat -> w q m = w' q m) -> output nn ms (y f) w t = output nn ms (y f) w' t.
  Proof. intros H. unfold output. apply csum_ext. intros q Hq. apply csum_ext. intros m Hm. rewrite H by assumption. reflexivity. Qed.
  Lemma error_ext f v k w w' : (forall q m, (q < nn)%nat -> (m < ms q)%nat -> w q m = w' q m) -> error nn ms (y f) v T k ref w = error nn ms (y f) v T k ref w'.
  Proof. intros H. unfold error. apply est_error_eq. intros t _. apply output_ext. exact H. Qed.
  Lemma own_only_netwide k w e : good_nbrs nn nbrs k -> own_only k w ->
    exists u, forall q m, (m < ms q)%nat -> w q m = netwide ti ms nbrs k u e q m.
  Proof.
    intros (HN & _) H. exists (fun c => if Nat.ltb c (ms k) then w k c else czero). intros q m Hm. unfold netwide.
    destruct (Nat.eqb_spec q k) as [->|Hq].
    - destruct (Nat.ltb_spec m (ms k)); [reflexivity | lia].
    - rewrite (H q m Hq). destruct (Nat.ltb_spec (ms k) (ms k)); [lia|]. destruct ti; [ring|].
      destruct (index_of q (nbrs k)) as [i|]; [|reflexivity]. destruct (Nat.ltb_spec (ms k + i) (ms k)); [lia | ring].
  Qed.

  (** ** Centralised *)
  Lemma locate_spec d : forall q0 l c, (d < l)%nat -> (c < ms (q0 + d))%nat ->
    locate ms q0 l (fold_left (fun a q => a + ms q)%nat (seq q0 d) 0 + c)%nat = ((q0 + d)%nat, c).
  Proof.
    induction d as [|d IH]; intros q0 l c Hl Hc.
    - destruct l as [|l]; [lia|]. rewrite Nat.add_0_r in *. cbn [seq fold_left locate]. rewrite Nat.add_0_l. destruct (Nat.ltb_spec c (ms q0)); [reflexivity | lia].
    - destruct l as [|l]; [lia|]. cbn [seq fold_left locate]. rewrite Nat.add_0_l.
      assert (A : forall (l : list nat) a, fold_left (fun a q => a + ms q)%nat l a = (a + fold_left (fun a q => a + ms q)%nat l 0)%nat).
      { clear. induction l as [|x l IH]; intros a; cbn [fold_left]; [lia|]. rewrite (IH (a + ms x)%nat), (IH (0 + ms x)%nat). lia. }
      rewrite A. destruct (Nat.ltb_spec (ms q0 + fold_left (fun a q => a + ms q) (seq (S q0) d) 0 + c)%nat (ms q0)); [lia|].
      replace (ms q0 + fold_left (fun a q => a + ms q) (seq (S q0) d) 0 + c - ms q0)%nat with (fold_left (fun a q => a + ms q) (seq (S q0) d) 0 + c)%nat by lia.
      rewrite IH; [f_equal; lia | lia |]. replace (S q0 + d)%nat with (q0 + S d)%nat by lia. exact Hc.
  Qed.
  Lemma locate_offset q m : (q < nn)%nat -> (m < ms q)%nat -> locate ms 0 nn (offset ms q + m) = (q, m).
  Proof. intros Hq Hm. exact (locate_spec q 0 nn m Hq Hm). Qed.
  Lemma csum_offset (F : nat -> cx) n : csum (offset ms n) F = csum n (fun q => csum (ms q) (fun m => F (offset ms q + m)%nat)).
  Proof. induction n as [|n IH]; [reflexivity|]. rewrite offset_S, csum_app, IH. reflexivity. Qed.
  Definition split_w (w : nat -> cx) : nfilter := fun q m => w (offset ms q + m)%nat.
  Lemma centr_output f w t : output nn ms (y f) (split_w w) t = fout (offset ms nn) (fun t c => y_centr nn ms ys t f c) w t.
  Proof.
    unfold fout. rewrite csum_offset. apply csum_ext. intros q Hq. apply csum_ext. intros m Hm.
    unfold y_centr. rewrite locate_offset by assumption. reflexivity.
  Qed.
  Lemma offset_lt k m : (k < nn)%nat -> (m < ms k)%nat -> (offset ms k + m < offset ms nn)%nat.
  Proof. intros Hk Hm. assert (H := offset_le ms (S k) nn ltac:(lia)). rewrite offset_S in H. lia. Qed.

  Variable v : list bool.
  Hypothesis Hv : forall k, (k < nn)%nat -> vads k = v.
  Lemma centr_vad_same : (0 < nn)%nat -> centr_vad nn vads = v.
  Proof.
    intros Hn. unfold centr_vad. rewrite (Hv 0) by exact Hn. apply nth_ext with (d := false) (d' := false).
    - rewrite map_length, seq_length. reflexivity.
    - intros t Ht. rewrite map_length, seq_length in Ht.
      rewrite (nth_indep _ false (existsb (fun q => nth 0 (vads q) false) (seq 0 nn))) by (rewrite map_length, seq_length; exact Ht).
      rewrite (map_nth (fun t => existsb (fun q => nth t (vads q) false) (seq 0 nn))), seq_nth by exact Ht. cbn [Nat.add].
      destruct (nth t v false) eqn:E.
      + apply existsb_exists. exists 0%nat. split; [apply in_seq; lia|]. rewrite Hv by exact Hn. exact E.
      + apply not_true_is_false. intros H. apply existsb_exists in H. destruct H as (q & Hq & H). apply in_seq in Hq. rewrite Hv in H by lia. congruence.
  Qed.
  Notation ccov := (centr_covmats nn ms ys vads).
  Notation cw := (centr_w nn ms ys vads ref inv).
  Notation nc := (offset ms nn).
  Lemma centr_solves k f : (k < nn)%nat -> is_inverse nc (fst ccov f) (inv nc (fst ccov f)) ->
    solves nc (rmat v T (fun t c => y_centr nn ms ys t f c) true) (cw k f)
      (fun i => rmat v T (fun t c => y_centr nn ms ys t f c) true i (offset ms k + ref)%nat - rmat v T (fun t c => y_centr nn ms ys t f c) false i (offset ms k + ref)%nat).
  Proof.
    intros Hk Hi. assert (H0n : (0 < nn)%nat) by lia. destruct (Hd k Hk) as (Hr & _). destruct (Hd 0%nat H0n) as (_ & HT & HV & H1 & H0). rewrite (Hv 0%nat H0n) in HV, H1, H0.
    assert (S := update_w_solves nc (offset ms k + ref)%nat _ (fst ccov f) (snd ccov f) (offset_lt k ref Hk Hr) Hi).
    assert (E := batch_rmat (y_centr nn ms ys) v T HV H1 H0 f). unfold centr_w, centr_covmats in *. rewrite (centr_vad_same H0n) in *. rewrite HT in *.
    refine (solves_ext _ _ _ _ _ _ _ _ S).
    - intros i j _ _. apply (E i j).
    - intros i _. destruct (E i (offset ms k + ref)%nat) as [-> ->]. reflexivity.
  Qed.
  Lemma centr_optimal k f (w : nfilter) : (k < nn)%nat -> is_inverse nc (fst ccov f) (inv nc (fst ccov f)) ->
    (error nn ms (y f) v T k ref (split_w (cw k f)) <= error nn ms (y f) v T k ref w)%R.
  Proof.
    intros Hk Hi. destruct (Hd k Hk) as (Hr & _).
    assert (A : forall u, error nn ms (y f) v T k ref (split_w u) = est_error v T (fout nc (fun t c => y_centr nn ms ys t f c) u) (fun t => y_centr nn ms ys t f (offset ms k + ref)%nat)).
    { intros u. unfold error. rewrite (est_error_eq _ _ _ (fout nc (fun t c => y_centr nn ms ys t f c) u)) by (intros t _; apply centr_output).
      f_equal. unfold y_centr. rewrite locate_offset by assumption. reflexivity. }
    rewrite A. rewrite (error_ext f v k w (split_w (fun c => w (fst (locate ms 0 nn c)) (snd (locate ms 0 nn c))))).
    - rewrite A. apply (normal_minimises v T nc (fun t c => y_centr nn ms ys t f c) (offset ms k + ref)%nat); apply centr_solves; assumption.
    - intros q m Hq Hm. unfold split_w. rewrite locate_offset by assumption. reflexivity.
  Qed.
End Opt.
