(** Proofs about correlation matrices and filter formulas. *)
From Verif Require Import Base BaseFacts Cx CxFacts Buffers BufFacts Filt FiltSpec FiltFacts Scm ScmSpec.
From Coq Require Import Reals Lra.
Open Scope R_scope.
Open Scope cx_scope.

Lemma quad_add n r s f x : quad n (fun f i j => r f i j + s f i j) f x = quad n r f x + quad n s f x.
Proof.
  unfold quad. rewrite <- csum_add. apply csum_ext. intros i _. rewrite <- csum_add. apply csum_ext. intros j _. ring.
Qed.
Lemma quad_scale n a r f x : quad n (fun f i j => a * r f i j) f x = a * quad n r f x.
Proof.
  unfold quad. rewrite <- csum_scale. apply csum_ext. intros i _. rewrite <- csum_scale. apply csum_ext. intros j _. ring.
Qed.
Lemma quad_rank1 n y f x :
  quad n (fun f i j => y f i * conj (y f j)) f x = csum n (fun i => conj (x i) * y f i) * conj (csum n (fun i => conj (x i) * y f i)).
Proof.
  unfold quad. rewrite csum_conj, <- csum_scale_r. apply csum_ext. intros i _. rewrite <- csum_scale. apply csum_ext. intros j _.
  rewrite conj_mul, conj_conj. ring.
Qed.
Lemma mul_conj_nonneg a : (0 <= re (a * conj a))%R /\ im (a * conj a) = 0%R.
Proof. destruct a as [a b]. cbn. split; [|ring]. assert (H1 := Rle_0_sqr a). assert (H2 := Rle_0_sqr b). unfold Rsqr in *. lra. Qed.
Lemma re_scale a z : re (cr a * z) = (a * re z)%R. Proof. cbn. ring. Qed.
Lemma im_scale a z : im (cr a * z) = (a * im z)%R. Proof. cbn. ring. Qed.

Lemma psd_add n r s : psd n r -> psd n s -> psd n (fun f i j => r f i j + s f i j).
Proof. intros Hr Hs f x. rewrite quad_add. destruct (Hr f x), (Hs f x). cbn. split; lra. Qed.
Lemma psd_scale n a r : (0 <= a)%R -> psd n r -> psd n (fun f i j => cr a * r f i j).
Proof.
  intros Ha Hr f x. rewrite quad_scale, re_scale, im_scale. destruct (Hr f x) as [H1 H2]. rewrite H2. split; [|ring].
  apply Rmult_le_pos; assumption.
Qed.
Lemma psd_rank1 n y : psd n (fun f i j => y f i * conj (y f j)).
Proof. intros f x. rewrite quad_rank1. apply mul_conj_nonneg. Qed.
Lemma inv_INR_nonneg n : (0 <= / INR n)%R.
Proof.
  destruct n as [|n]; [cbn; rewrite Rinv_0; lra|]. left. apply Rinv_0_lt_compat. apply lt_0_INR. lia.
Qed.

Lemma outer_ok n y : hermitian n (outer y) /\ psd n (outer y).
Proof.
  split.
  - intros f i j _ _. unfold outer. rewrite !conj_mul, conj_cr, conj_conj. ring.
  - apply (psd_scale n _ (fun f i j => snd y f i * conj (snd y f j))); [apply inv_INR_nonneg | apply psd_rank1].
Qed.
Lemma avg_ok n beta r s : (0 <= beta <= 1)%R -> hermitian n r /\ psd n r -> hermitian n s /\ psd n s ->
  hermitian n (avg beta r s) /\ psd n (avg beta r s).
Proof.
  intros Hb [H1 H2] [H3 H4]. split.
  - intros f i j Hi Hj. unfold avg. rewrite H1, H3 by assumption. rewrite conj_add, !conj_mul, !conj_cr. reflexivity.
  - apply (psd_add n (fun f i j => cr beta * r f i j) (fun f i j => cr (1 - beta) * s f i j)); apply psd_scale; try assumption; lra.
Qed.

(** ** Along runs *)
Section Run.
  Variables (beta : R) (valid : nat -> tens -> tens -> bool) (W : Type) (solve : nat -> tens -> tens -> W) (p : fparams).
  Hypothesis Hb : (0 <= beta <= 1)%R.
  Notation run := (filt_run outer (avg beta) valid solve p).
  Notation step := (filt_step outer (avg beta) valid solve p).
  Definition good (n : nat) (r : tens) := hermitian n r /\ psd n r.

  Lemma mid_good d wh n u (e : est tens W) : good d (e_ryy e) -> good d (e_rnn e) ->
    good d (e_ryy (mid _ tens W outer (avg beta) valid p wh n u e)) /\ good d (e_rnn (mid _ tens W outer (avg beta) valid p wh n u e)).
  Proof.
    intros H1 H2. unfold mid, check_covmats, scm_update. cbn [e_ryy e_rnn].
    assert (Ho := outer_ok d (frame wh u)).
    assert (A1 : good d (avg beta (e_ryy e) (outer (frame wh u)))) by (apply avg_ok; assumption).
    assert (A2 : good d (avg beta (e_rnn e) (outer (frame wh u)))) by (apply avg_ok; assumption).
    destruct (f_use1st p); cbn [e_ryy e_rnn]; [|destruct (vad wh u); split; assumption].
    split.
    - destruct (_ && _)%bool; [exact Ho|]. destruct (Nat.ltb _ _); [|exact H1]. destruct (vad wh u); assumption.
    - destruct (_ && _)%bool; [exact Ho|]. destruct (Nat.ltb _ _); [|exact H2]. destruct (vad wh u); assumption.
  Qed.

  Lemma run_good d us n0 n wh e0 : run us n0 = Ok n -> estimator wh n0 = Some e0 -> good d (e_ryy e0) -> good d (e_rnn e0) ->
    exists e, estimator wh n = Some e /\ good d (e_ryy e) /\ good d (e_rnn e).
  Proof.
    revert n0 e0. induction us as [|u us IH]; intros n0 e0 H He H1 H2; unfold filt_run in H; cbn [foldM] in H.
    - injection H as <-. exists e0. auto.
    - destruct (step n0 u) as [n1|] eqn:E; [|discriminate]. cbn [bind] in H.
      destruct (step_est _ _ _ _ _ _ _ _ _ _ _ _ _ E He) as [e1 [He1 Ho]].
      destruct (outcome_fields _ _ _ valid _ _ _ _ _ _ _ Ho) as (E1 & E2 & _).
      destruct (mid_good d wh n0 u e0 H1 H2) as [G1 G2].
      apply (IH n1 e1 H He1); [rewrite E1 | rewrite E2]; assumption.
  Qed.
End Run.

(** ** Batch estimates *)
Lemma mean_outer_ok n ys r : mean_outer ys = Some r -> hermitian n r /\ psd n r.
Proof.
  unfold mean_outer. destruct ys as [|y0 ys0] eqn:E; [discriminate|]. rewrite <- E. clear E. intros H. injection H as <-. split.
  - intros f i j _ _. rewrite conj_mul, conj_cr, csum_conj. f_equal. apply csum_ext. intros t _. rewrite conj_mul, conj_conj. ring.
  - apply (psd_scale n _ (fun f i j => csum (length ys) (fun t => nth t ys (fun _ _ => czero) f i * conj (nth t ys (fun _ _ => czero) f j)))).
    + apply inv_INR_nonneg.
    + generalize (length ys). intros m. induction m as [|m IH].
      * intros f x. unfold quad. cbn [csum]. rewrite (csum_ext n _ (fun _ => czero)), csum_0; [cbn; lra|].
        intros i _. rewrite (csum_ext n _ (fun _ => czero)), csum_0; [reflexivity|]. intros j _. ring.
      * cbn [csum]. apply (psd_add n _ (fun f i j => nth m ys (fun _ _ => czero) f i * conj (nth m ys (fun _ _ => czero) f j))); [exact IH|].
        apply (psd_rank1 n (nth m ys (fun _ _ => czero))).
Qed.

(** ** Matrix algebra *)
Lemma mat_eq_refl n a : mat_eq n a a. Proof. intros i j _ _. reflexivity. Qed.
Lemma mat_eq_sym n a b : mat_eq n a b -> mat_eq n b a. Proof. intros H i j Hi Hj. symmetry. apply H; assumption. Qed.
Lemma mat_eq_trans n a b c : mat_eq n a b -> mat_eq n b c -> mat_eq n a c.
Proof. intros H1 H2 i j Hi Hj. rewrite H1, H2 by assumption. reflexivity. Qed.
Lemma mmul_ext n a a' b b' : mat_eq n a a' -> mat_eq n b b' -> mat_eq n (mmul n a b) (mmul n a' b').
Proof. intros H1 H2 i j Hi Hj. unfold mmul. apply csum_ext. intros k Hk. rewrite H1, H2 by assumption. reflexivity. Qed.
Lemma mmul_assoc n a b c : mat_eq n (mmul n (mmul n a b) c) (mmul n a (mmul n b c)).
Proof.
  intros i j _ _. unfold mmul. rewrite (csum_ext n _ (fun k => csum n (fun l => a i l * b l k * c k j))).
  - rewrite csum_swap. apply csum_ext. intros l _. rewrite <- csum_scale. apply csum_ext. intros k _. ring.
  - intros k _. rewrite <- csum_scale_r. reflexivity.
Qed.
Lemma mmul_ident_l n a : mat_eq n (mmul n ident a) a.
Proof.
  intros i j Hi _. unfold mmul, ident. rewrite (csum_single n _ i Hi).
  - rewrite Nat.eqb_refl. ring.
  - intros k _ Hk. destruct (Nat.eqb_spec i k); [congruence|]. ring.
Qed.
Lemma mmul_ident_r n a : mat_eq n (mmul n a ident) a.
Proof.
  intros i j _ Hj. unfold mmul, ident. rewrite (csum_single n _ j Hj).
  - rewrite Nat.eqb_refl. ring.
  - intros k _ Hk. destruct (Nat.eqb_spec k j); [congruence|]. ring.
Qed.
Lemma mvec_mmul n a b x i : mvec n (mmul n a b) x i = mvec n a (mvec n b x) i.
Proof.
  unfold mvec, mmul. rewrite (csum_ext n _ (fun k => csum n (fun l => a i l * b l k * x k))).
  - rewrite csum_swap. apply csum_ext. intros l _. rewrite <- csum_scale. apply csum_ext. intros k _. ring.
  - intros k _. rewrite <- csum_scale_r. reflexivity.
Qed.
Lemma mvec_ident n x i : (i < n)%nat -> mvec n ident x i = x i.
Proof.
  intros Hi. unfold mvec, ident. rewrite (csum_single n _ i Hi).
  - rewrite Nat.eqb_refl. ring.
  - intros k _ Hk. destruct (Nat.eqb_spec i k); [congruence|]. ring.
Qed.
Lemma mvec_ext n a a' x x' i : mat_eq n a a' -> (forall j, (j < n)%nat -> x j = x' j) -> (i < n)%nat -> mvec n a x i = mvec n a' x' i.
Proof. intros H1 H2 Hi. unfold mvec. apply csum_ext. intros j Hj. rewrite H1, H2 by assumption. reflexivity. Qed.
Lemma mvec_unit n a r i : (r < n)%nat -> mvec n a (unit_vec r) i = a i r.
Proof.
  intros Hr. unfold mvec, unit_vec. rewrite (csum_single n _ r Hr).
  - rewrite Nat.eqb_refl. ring.
  - intros k _ Hk. destruct (Nat.eqb_spec k r); [congruence|]. ring.
Qed.

Lemma update_w_solves n ref inv ryy rnn : (ref < n)%nat -> is_inverse n ryy inv ->
  solves n ryy (update_w n ref inv ryy rnn) (fun i => ryy i ref - rnn i ref).
Proof.
  intros Hr [H _] i Hi. change (mvec n ryy (update_w n ref inv ryy rnn) i = ryy i ref - rnn i ref).
  unfold update_w. rewrite <- mvec_mmul. rewrite (mvec_ext n _ ident _ (mvec n (msub ryy rnn) (unit_vec ref)) i H (fun _ _ => eq_refl) Hi).
  rewrite mvec_ident by exact Hi. rewrite mvec_unit by exact Hr. reflexivity.
Qed.
Lemma solution_unique n a inv w w' b : is_inverse n a inv -> solves n a w b -> solves n a w' b -> forall i, (i < n)%nat -> w i = w' i.
Proof.
  intros [_ H] H1 H2 i Hi. rewrite <- (mvec_ident n w i Hi), <- (mvec_ident n w' i Hi).
  rewrite <- (mvec_ext n _ ident w w i H (fun _ _ => eq_refl) Hi), <- (mvec_ext n _ ident w' w' i H (fun _ _ => eq_refl) Hi).
  rewrite !mvec_mmul. apply mvec_ext; [apply mat_eq_refl | | exact Hi]. intros j Hj. unfold mvec. rewrite (H1 j Hj), (H2 j Hj). reflexivity.
Qed.
Lemma solves_scale n a w b c : c <> czero -> solves n a w b -> solves n (fun i j => c * a i j) w (fun i => c * b i).
Proof.
  intros _ H i Hi. rewrite <- (H i Hi), <- csum_scale. apply csum_ext. intros j _. ring.
Qed.

Lemma mat_inverse_unique n a b c : mat_eq n (mmul n a b) ident -> mat_eq n (mmul n b c) ident -> mat_eq n a c.
Proof.
  intros H1 H2. apply (mat_eq_trans n _ (mmul n a (mmul n b c))).
  - apply mat_eq_sym. apply (mat_eq_trans n _ (mmul n a ident)); [apply mmul_ext; [apply mat_eq_refl | exact H2] | apply mmul_ident_r].
  - apply (mat_eq_trans n _ (mmul n (mmul n a b) c)); [apply mat_eq_sym, mmul_assoc|].
    apply (mat_eq_trans n _ (mmul n ident c)); [apply mmul_ext; [exact H1 | apply mat_eq_refl] | apply mmul_ident_l].
Qed.
Lemma mherm_mmul n a b : mat_eq n (mherm (mmul n a b)) (mmul n (mherm b) (mherm a)).
Proof. intros i j _ _. unfold mherm, mmul. rewrite csum_conj. apply csum_ext. intros k _. rewrite conj_mul. ring. Qed.
Lemma mherm_ident n : mat_eq n (mherm ident) ident.
Proof.
  intros i j _ _. unfold mherm, ident. rewrite Nat.eqb_sym. destruct (Nat.eqb i j); cbn; [apply (conj_cr 1) | apply (conj_cr 0)].
Qed.
Lemma mherm_ext n a b : mat_eq n a b -> mat_eq n (mherm a) (mherm b).
Proof. intros H i j Hi Hj. unfold mherm. rewrite H by assumption. reflexivity. Qed.

Lemma gevd_full_rank n ref sig x q inv ryy rnn : (ref < n)%nat -> gevd n ryy rnn sig x -> is_inverse n (mherm x) q ->
  (forall i, (i < n)%nat -> sig i <> 0%R) -> is_inverse n ryy inv ->
  forall i, (i < n)%nat -> update_w_gevd n ref n sig x q i = update_w n ref inv ryy rnn i.
Proof.
  intros Hr [G1 G2] [Q1 Q2] Hs Hinv.
  assert (HX : mat_eq n (mmul n x (mherm q)) ident).
  { apply (mat_eq_trans n _ (mherm (mmul n q (mherm x)))).
    - apply mat_eq_sym. refine (mat_eq_trans n _ _ _ (mherm_mmul n q (mherm x)) _). apply mmul_ext; [|apply mat_eq_refl].
      intros i j _ _. unfold mherm. apply conj_conj.
    - refine (mat_eq_trans n _ _ _ (mherm_ext n _ _ Q2) (mherm_ident n)). }
  (* from [x^H m x = d] to [m x = q d] *)
  assert (HM : forall m d, mat_eq n (mmul n (mherm x) (mmul n m x)) d -> mat_eq n (mmul n m x) (mmul n q d)).
  { intros m d H. apply mat_eq_sym. apply (mat_eq_trans n _ (mmul n q (mmul n (mherm x) (mmul n m x)))).
    - apply mmul_ext; [apply mat_eq_refl | apply mat_eq_sym, H].
    - refine (mat_eq_trans n _ _ _ (mat_eq_sym n _ _ (mmul_assoc n _ _ _)) _).
      refine (mat_eq_trans n _ _ _ (mmul_ext n _ _ _ _ Q2 (mat_eq_refl n _)) (mmul_ident_l n _)). }
  assert (HY := HM ryy _ G1). assert (HN := HM rnn _ G2).
  set (S := fun i j : nat => if Nat.eqb i j then cr (sig i) else czero) in *.
  (* ryy W = ryy - rnn *)
  assert (HW : mat_eq n (mmul n ryy (mmul n (mmul n x (dmat n sig)) (mherm q))) (msub ryy rnn)).
  { refine (mat_eq_trans n _ _ _ (mat_eq_sym n _ _ (mmul_assoc n _ _ _)) _).
    apply (mat_eq_trans n _ (mmul n (msub (mmul n ryy x) (mmul n rnn x)) (mherm q))).
    - apply mmul_ext; [|apply mat_eq_refl]. refine (mat_eq_trans n _ _ _ (mat_eq_sym n _ _ (mmul_assoc n _ _ _)) _).
      refine (mat_eq_trans n _ _ _ (mmul_ext n _ _ _ _ HY (mat_eq_refl n _)) _).
      refine (mat_eq_trans n _ _ _ (mmul_assoc n _ _ _) _).
      intros i j Hi Hj. unfold msub. rewrite (HY i j Hi Hj), (HN i j Hi Hj).
      unfold mmul at 1 3 4. rewrite (csum_single n (fun k => q i k * mmul n S (dmat n sig) k j) j Hj).
      + rewrite (csum_single n (fun k => q i k * S k j) j Hj), (csum_single n (fun k => q i k * ident k j) j Hj).
        * unfold mmul, S, ident, dmat. rewrite (csum_single n _ j Hj).
          -- rewrite Nat.eqb_refl. destruct (Nat.ltb_spec j n); [|lia]. cbn [andb].
             assert (Hc : cr (sig j) * cr (1 - 1 / sig j) = cr (sig j) - cone).
             { apply cx_eq; cbn; [field; apply Hs; exact Hj | ring]. }
             rewrite Hc. ring.
          -- intros k _ Hk. destruct (Nat.eqb_spec j k); [congruence|]. ring.
        * intros k _ Hk. unfold ident. destruct (Nat.eqb_spec k j); [congruence|]. ring.
        * intros k _ Hk. unfold S. destruct (Nat.eqb_spec k j); [congruence|]. ring.
      + intros k Hk Hkj. unfold mmul. rewrite (csum_ext n _ (fun _ => czero)), csum_0; [ring|]. intros l _. unfold S, dmat.
        destruct (Nat.eqb_spec k l); [subst l; destruct (Nat.eqb_spec k j); [congruence|]; cbn [andb]; ring | ring].
    - intros i j Hi Hj.
      assert (A1 := mmul_assoc n ryy x (mherm q) i j Hi Hj). assert (A2 := mmul_assoc n rnn x (mherm q) i j Hi Hj).
      rewrite (mmul_ext n _ _ _ _ (mat_eq_refl n ryy) HX i j Hi Hj), (mmul_ident_r n ryy i j Hi Hj) in A1.
      rewrite (mmul_ext n _ _ _ _ (mat_eq_refl n rnn) HX i j Hi Hj), (mmul_ident_r n rnn i j Hi Hj) in A2.
      unfold msub. rewrite <- A1, <- A2. unfold mmul at 1 4 6.
      rewrite (csum_ext n _ (fun k => mmul n ryy x i k * mherm q k j + (copp cone) * (mmul n rnn x i k * mherm q k j))) by (intros; ring).
      rewrite csum_add, csum_scale. ring. }
  intros i Hi. apply (solution_unique n ryy inv _ _ (fun i => ryy i ref - rnn i ref) Hinv); [|apply update_w_solves; assumption | exact Hi].
  intros k Hk. exact (HW k ref Hk Hr).
Qed.

(** column space *)
Lemma gevd_span n ref rank sig x q : (rank <= n)%nat ->
  exists c : nat -> cx, forall i, (i < n)%nat -> update_w_gevd n ref rank sig x q i = csum rank (fun r => x i r * c r).
Proof.
  intros Hrk. exists (fun r => cr (1 - 1 / sig r) * mherm q r ref). intros i Hi. unfold update_w_gevd. unfold mmul at 1.
  rewrite (csum_ext n _ (fun r => if Nat.ltb r rank then x i r * (cr (1 - 1 / sig r) * mherm q r ref) else czero)).
  - replace n with (rank + (n - rank))%nat by lia. rewrite csum_app.
    rewrite (csum_ext (n - rank) _ (fun _ => czero)), csum_0.
    + rewrite (csum_ext rank _ (fun r => x i r * (cr (1 - 1 / sig r) * mherm q r ref))); [ring|].
      intros r Hr. destruct (Nat.ltb_spec r rank); [reflexivity | lia].
    + intros r _. destruct (Nat.ltb_spec (rank + r) rank); [lia | reflexivity].
  - intros r Hr. unfold mmul. rewrite (csum_single n _ r Hr).
    + unfold dmat. rewrite Nat.eqb_refl. cbn [andb]. destruct (Nat.ltb r rank); ring.
    + intros k _ Hk. unfold dmat. destruct (Nat.eqb_spec k r); [congruence|]. cbn [andb]. ring.
Qed.
