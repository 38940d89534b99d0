(** Least squares for estimated errors. *)
From Verif Require Import Base BaseFacts Cx CxFacts Scm ScmSpec ScmFacts ScmFacts2 BatchSigSpec.
From Coq Require Import Reals Lra.
Local Open Scope R_scope.
Local Open Scope cx_scope.

(** ** Averages *)
Section Avg.
  Variables (v : list bool) (b : bool) (n : nat).
  Notation A := (avg_over v b n).
  Lemma avg_ext x y : (forall t, (t < n)%nat -> x t = y t) -> A x = A y.
  Proof. intros H. unfold avg_over. f_equal. apply csum_ext. intros t Ht. rewrite H by exact Ht. reflexivity. Qed.
  Lemma avg_add x y : A (fun t => x t + y t) = A x + A y.
  Proof.
    unfold avg_over. rewrite (csum_ext n _ (fun t => (if is_kind v b t then x t else czero) + (if is_kind v b t then y t else czero))).
    - rewrite csum_add. ring.
    - intros t _. destruct (is_kind v b t); ring.
  Qed.
  Lemma avg_scale a x : A (fun t => a * x t) = a * A x.
  Proof.
    unfold avg_over. rewrite (csum_ext n _ (fun t => a * (if is_kind v b t then x t else czero))).
    - rewrite csum_scale. ring.
    - intros t _. destruct (is_kind v b t); ring.
  Qed.
  Lemma avg_csum m (x : nat -> nat -> cx) : A (fun t => csum m (fun i => x i t)) = csum m (fun i => A (x i)).
  Proof.
    induction m as [|m IH].
    - cbn [csum]. unfold avg_over. rewrite (csum_ext n _ (fun _ => czero)); [rewrite csum_0; ring|]. intros t _. destruct (is_kind v b t); reflexivity.
    - cbn [csum]. rewrite <- IH. rewrite <- avg_add. reflexivity.
  Qed.
  Lemma avg_conj x : conj (A x) = A (fun t => conj (x t)).
  Proof.
    unfold avg_over. rewrite conj_mul, conj_cr, csum_conj. f_equal. apply csum_ext. intros t _. destruct (is_kind v b t); [reflexivity|]. apply cx_eq; cbn; ring.
  Qed.
  Lemma csum_re_nonneg m f : (forall t, (t < m)%nat -> 0 <= re (f t))%R -> (0 <= re (csum m f))%R.
  Proof. induction m as [|m IH]; intros H; [cbn; lra|]. cbn. assert (0 <= re (csum m f))%R by (apply IH; intros; apply H; lia). assert (0 <= re (f m))%R by (apply H; lia). lra. Qed.
  Lemma avg_nonneg (x : nat -> R) : (forall t, 0 <= x t)%R -> (0 <= re (A (fun t => cr (x t))))%R.
  Proof.
    intros H. unfold avg_over. rewrite re_scale. apply Rmult_le_pos; [apply inv_INR_nonneg|]. apply csum_re_nonneg.
    intros t _. destruct (is_kind v b t); [apply H | cbn; lra].
  Qed.
End Avg.
Lemma sq_nonneg z : (0 <= sq z)%R.
Proof. unfold sq. assert (H1 := Rle_0_sqr (re z)). assert (H2 := Rle_0_sqr (im z)). unfold Rsqr in *. lra. Qed.
Lemma sq_conj z : cr (sq z) = z * conj z.
Proof. apply cx_eq; cbn; unfold sq; ring. Qed.

(** ** Estimated error around an output orthogonal to a deviation *)
Definition cross (v : list bool) (n : nat) (o d : nat -> cx) : cx :=
  avg_over v true n (fun t => o t * conj (d t)) - avg_over v false n (fun t => o t * conj (d t)).
Lemma est_error_eq v n o o' d : (forall t, (t < n)%nat -> o t = o' t) -> est_error v n o d = est_error v n o' d.
Proof.
  intros H. unfold est_error. rewrite (avg_ext v true n (fun t => cr (sq (o t))) (fun t => cr (sq (o' t)))) by (intros; rewrite H; auto).
  rewrite (avg_ext v true n (fun t => o t * conj (d t)) (fun t => o' t * conj (d t))) by (intros; rewrite H; auto).
  rewrite (avg_ext v false n (fun t => o t * conj (d t)) (fun t => o' t * conj (d t))) by (intros; rewrite H; auto). reflexivity.
Qed.
Lemma est_error_orth v n o e d :
  avg_over v true n (fun t => e t * conj (o t)) = cross v n e d ->
  est_error v n (fun t => o t + e t) d = (est_error v n o d + re (avg_over v true n (fun t => cr (sq (e t)))))%R.
Proof.
  intros H. unfold est_error.
  rewrite (avg_ext v true n (fun t => cr (sq (o t + e t))) (fun t => cr (sq (o t)) + (cr (sq (e t)) + (e t * conj (o t) + conj (e t * conj (o t)))))).
  2:{ intros t _. apply cx_eq; cbn; unfold sq; cbn; ring. }
  rewrite !avg_add, <- avg_conj, H.
  rewrite (avg_ext v true n (fun t => (o t + e t) * conj (d t)) (fun t => o t * conj (d t) + e t * conj (d t))) by (intros; ring).
  rewrite (avg_ext v false n (fun t => (o t + e t) * conj (d t)) (fun t => o t * conj (d t) + e t * conj (d t))) by (intros; ring).
  rewrite !avg_add. unfold cross. cbn. ring.
Qed.

(** ** Filters on [c] channels *)
Section LS.
  Variables (v : list bool) (n c : nat) (x : nat -> nat -> cx).
  Definition fout (w : nat -> cx) (t : nat) : cx := csum c (fun i => conj (w i) * x t i).
  Definition rmat (b : bool) : mat := fun i j => avg_over v b n (fun t => x t i * conj (x t j)).

  Lemma fout_corr b w z : avg_over v b n (fun t => fout w t * conj (z t)) = csum c (fun i => conj (w i) * avg_over v b n (fun t => x t i * conj (z t))).
  Proof.
    rewrite (avg_ext v b n _ (fun t => csum c (fun i => conj (w i) * (x t i * conj (z t))))).
    - rewrite avg_csum. apply csum_ext. intros i _. apply avg_scale.
    - intros t _. unfold fout. rewrite <- csum_scale_r. apply csum_ext. intros i _. ring.
  Qed.
  Lemma fout_cross w ref : cross v n (fout w) (fun t => x t ref) = csum c (fun i => conj (w i) * (rmat true i ref - rmat false i ref)).
  Proof.
    unfold cross. rewrite !fout_corr. unfold rmat.
    rewrite (csum_ext c (fun i => conj (w i) * (_ - _)) (fun i => conj (w i) * avg_over v true n (fun t => x t i * conj (x t ref)) + (copp cone) * (conj (w i) * avg_over v false n (fun t => x t i * conj (x t ref))))).
    - rewrite csum_add, csum_scale. ring.
    - intros i _. ring.
  Qed.
  Lemma fout_auto u w : avg_over v true n (fun t => fout u t * conj (fout w t)) = csum c (fun i => conj (u i) * csum c (fun j => rmat true i j * w j)).
  Proof.
    rewrite fout_corr. apply csum_ext. intros i _. f_equal. unfold rmat.
    rewrite (avg_ext v true n _ (fun t => csum c (fun j => w j * (x t i * conj (x t j))))).
    - rewrite avg_csum. apply csum_ext. intros j _. rewrite avg_scale. ring.
    - intros t _. unfold fout. rewrite csum_conj, <- csum_scale. apply csum_ext. intros j _. rewrite conj_mul, conj_conj. ring.
  Qed.
  Lemma fout_add w w' t : fout (fun i => w i + w' i) t = fout w t + fout w' t.
  Proof. unfold fout. rewrite <- csum_add. apply csum_ext. intros i _. rewrite conj_add. ring. Qed.

  (** The solution of the normal equations minimises the estimated error. *)
  Lemma normal_minimises ref w0 w : solves c (rmat true) w0 (fun i => rmat true i ref - rmat false i ref) ->
    (est_error v n (fout w0) (fun t => x t ref) <= est_error v n (fout w) (fun t => x t ref))%R.
  Proof.
    intros H. set (dw := fun i => w i - w0 i).
    rewrite (est_error_eq v n (fout w) (fun t => fout w0 t + fout dw t)).
    - rewrite est_error_orth.
      + assert (A := avg_nonneg v true n (fun t => sq (fout dw t)) (fun t => sq_nonneg _)). cbv beta in A. lra.
      + rewrite fout_auto, fout_cross. apply csum_ext. intros i Hi. rewrite (H i Hi). reflexivity.
    - intros t _. rewrite <- fout_add. unfold fout. apply csum_ext. intros i _. unfold dw. f_equal. f_equal. ring.
  Qed.
End LS.
