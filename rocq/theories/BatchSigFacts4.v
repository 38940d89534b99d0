(** Batch DANSE with one desired source: decrease of the error, fixed point. *)
From Verif Require Import Base BaseFacts Cx CxFacts Scm ScmSpec ScmFacts ScmFacts2 Ext Buffers Batch BatchFacts BatchSig BatchSigSpec BatchSigFacts BatchSigFacts2 BatchSigFacts3.
From Coq Require Import Reals Lra.
Local Open Scope R_scope.
Local Open Scope cx_scope.

Lemma sq_pos z : z <> czero -> (0 < sq z)%R.
Proof.
  intros H. assert (A := sq_nonneg z). destruct (Req_dec (sq z) 0) as [E|]; [|lra]. exfalso. apply H. unfold sq in E.
  assert (H1 := Rle_0_sqr (re z)). assert (H2 := Rle_0_sqr (im z)). unfold Rsqr in *.
  apply cx_eq; cbn; apply Rsqr_0_uniq; unfold Rsqr; lra.
Qed.
Lemma cinv_r z : z <> czero -> z * cinv z = cone.
Proof.
  intros H. assert (A := sq_pos z H). unfold sq in A. apply cx_eq; cbn; field; lra.
Qed.
Lemma sq_mul a b : sq (a * b) = (sq a * sq b)%R.
Proof. unfold sq. cbn. ring. Qed.
Lemma sq_cinv z : z <> czero -> (sq z * sq (cinv z) = 1)%R.
Proof. intros H. rewrite <- sq_mul, cinv_r by exact H. unfold sq. cbn. ring. Qed.
Lemma sq_cj z : sq (conj z) = sq z.
Proof. unfold sq. cbn. ring. Qed.

Lemma nth_of_error {A} (l : list A) i d : nth i l d = match nth_error l i with Some a => a | None => d end.
Proof. revert i. induction l as [|x l IH]; intros [|i]; cbn; auto. Qed.
Lemma is_inverse_ext n a a' b : (forall i j, (i < n)%nat -> (j < n)%nat -> a i j = a' i j) -> is_inverse n a b -> is_inverse n a' b.
Proof.
  intros H [H1 H2]. split; intros i j Hi Hj; [rewrite <- (H1 i j Hi Hj) | rewrite <- (H2 i j Hi Hj)]; unfold mmul; apply csum_ext; intros l Hl; rewrite H by assumption; reflexivity.
Qed.
Lemma offset_locate ms n c : (c < offset ms n)%nat -> exists q m, (q < n)%nat /\ (m < ms q)%nat /\ c = (offset ms q + m)%nat.
Proof.
  induction n as [|n IH]; [unfold offset; cbn; lia|]. rewrite offset_S. intros H. destruct (Nat.lt_ge_cases c (offset ms n)) as [Hc|Hc].
  - destruct (IH Hc) as (q & m & A & B & C). exists q, m. split; [lia|]. auto.
  - exists n, (c - offset ms n)%nat. lia.
Qed.

(** ** Runs *)
Section Runs.
  Variables (covm : list coefs -> nat -> tens * tens) (solve : nat -> tens * tens -> coefs).
  Variable rule : nat -> coefs -> coefs -> coefs.
  Variables (nn iters : nat) (up : nat -> nat -> bool) (bs bs' : list (bnode coefs coefs)).
  Hypothesis Hn : length bs = nn.
  Hypothesis Hr : ready iters bs.
  Definition steps : Prop := (forall k, int_filter bs' 0 k = int_filter bs 0 k /\ ext_filter bs' 0 k = ext_filter bs 0 k) /\
    forall j k, (j < iters)%nat -> (k < nn)%nat ->
      int_filter bs' (S j) k = (if up j k then solve k (covm (ext_filters nn bs' j) k) else int_filter bs' j k) /\
      ext_filter bs' (S j) k = rule k (ext_filter bs' j k) (int_filter bs' (S j) k).
  Lemma ext_filters_ok j es : length bs' = nn -> mapM (fun b => get (b_ext b) j) bs' = Ok es -> es = ext_filters nn bs' j.
  Proof.
    intros L H. assert (L' := mapM_length _ _ _ H). apply nth_ext with (d := fun _ _ => czero) (d' := ext_filter bs' j O).
    - unfold ext_filters. rewrite map_length, seq_length. congruence.
    - intros k Hk. unfold ext_filters. rewrite map_nth, seq_nth by congruence. cbn [Nat.add]. unfold ext_filter.
      destruct (nth_error bs' k) as [b|] eqn:E; [|apply nth_error_None in E; lia].
      destruct (mapM_nth _ _ _ _ _ H E) as [e [H1 H2]]. unfold get in H2. destruct (nth_error (b_ext b) j) eqn:E2; [|discriminate].
      injection H2 as ->. rewrite (nth_error_nth _ _ _ H1), (nth_error_nth _ _ _ E2). reflexivity.
  Qed.
  Lemma steps_from : keeps coefs coefs 0 bs bs' -> (forall j, (j < iters)%nat -> iteration_ok _ _ _ covm solve rule (up j) j bs') -> steps.
  Proof.
    intros [L K] H. rewrite Hn in L. split.
    - intros k. unfold int_filter, ext_filter. destruct (nth_error bs k) as [b|] eqn:E.
      + destruct (K k b E) as (b' & E' & _ & _ & Hj). rewrite E'. destruct (Hj O (le_n _)) as [H1 H2].
        split; rewrite !nth_of_error; [rewrite H1 | rewrite H2]; reflexivity.
      + assert (E' : nth_error bs' k = None) by (apply nth_error_None; apply nth_error_None in E; lia). rewrite E'. auto.
    - intros j k Hj Hk. destruct (H j Hj) as (es & Hes & Hb). apply ext_filters_ok in Hes; [|exact L]. subst es.
      destruct (nth_error bs' k) as [b|] eqn:E; [|apply nth_error_None in E; lia].
      destruct (Hb k b E) as (w & w' & e & H1 & H2 & H3 & H4 & H5). unfold int_filter, ext_filter in *. rewrite E.
      rewrite (nth_error_nth _ _ _ H1), (nth_error_nth _ _ _ H2), (nth_error_nth _ _ _ H3), (nth_error_nth _ _ _ H5). auto.
  Qed.
End Runs.

Lemma seq_steps covm solve rule nn iters bs bs' : length bs = nn -> (0 < nn)%nat -> ready iters bs -> batch_seq covm solve rule iters 0 bs = Ok bs' ->
  length bs' = nn /\ steps covm solve rule nn iters (fun j k => Nat.eqb (j mod nn) k) bs bs'.
Proof.
  intros Hn H0 Hr H. assert (Hi : at_iter coefs coefs 0 bs) by (intros b Hb; apply (Hr b Hb)).
  replace O with (O mod length bs)%nat in H at 1 by (apply Nat.mod_0_l; lia).
  destruct (seq_run _ _ _ covm solve rule iters 0 bs bs' H Hi) as (K & _ & C); [intros b Hb; apply (Hr b Hb)|].
  split; [destruct K; congruence|]. apply steps_from; [exact Hn | exact K |]. intros j Hj. rewrite <- Hn. exact (C j ltac:(lia)).
Qed.
Lemma sim_steps covm solve rule nn iters bs bs' : length bs = nn -> ready iters bs -> batch_sim covm solve rule iters bs = Ok bs' ->
  length bs' = nn /\ steps covm solve rule nn iters (fun _ _ => true) bs bs'.
Proof.
  intros Hn Hr H. assert (Hi : at_iter coefs coefs 0 bs) by (intros b Hb; apply (Hr b Hb)).
  destruct (sim_run _ _ _ covm solve rule iters 0 bs bs' H Hi) as (K & _ & C); [intros b Hb; apply (Hr b Hb)|].
  split; [destruct K; congruence|]. apply steps_from; [exact Hn | exact K |]. intros j Hj. exact (C j ltac:(lia)).
Qed.

(** ** One source *)
Section Src.
  Variables (nn : nat) (ms : nat -> nat) (y : nat -> nat -> nat -> cx) (v : list bool) (T ref : nat) (p : R) (s : nat -> nat -> cx).
  Hypothesis Hs : single_source nn ms y v T p s.
  Hypothesis Href : forall k, (k < nn)%nat -> (ref < ms k)%nat.
  Notation out := (output nn ms y).
  Notation err k w := (error nn ms y v T k ref w).

  Lemma output_corr b w z : avg_over v b T (fun t => out w t * conj (z t)) =
    csum nn (fun q => csum (ms q) (fun m => conj (w q m) * avg_over v b T (fun t => y q t m * conj (z t)))).
  Proof.
    rewrite (avg_ext v b T _ (fun t => csum nn (fun q => csum (ms q) (fun m => conj (w q m) * (y q t m * conj (z t)))))).
    - rewrite avg_csum. apply csum_ext. intros q _. rewrite avg_csum. apply csum_ext. intros m _. apply avg_scale.
    - intros t _. unfold output. rewrite <- csum_scale_r. apply csum_ext. intros q _. rewrite <- csum_scale_r. apply csum_ext. intros m _. ring.
  Qed.
  Lemma output_cross w z : cross v T (out w) z = csum nn (fun q => csum (ms q) (fun m => conj (w q m) * cross v T (fun t => y q t m) z)).
  Proof.
    unfold cross. rewrite !output_corr.
    rewrite (csum_ext nn (fun q => csum (ms q) (fun m => conj (w q m) * (_ - _)))
      (fun q => csum (ms q) (fun m => conj (w q m) * avg_over v true T (fun t => y q t m * conj (z t))) + copp cone * csum (ms q) (fun m => conj (w q m) * avg_over v false T (fun t => y q t m * conj (z t))))).
    - rewrite csum_add, csum_scale. ring.
    - intros q _. rewrite <- csum_scale, <- csum_add. apply csum_ext. intros m _. ring.
  Qed.
  Definition gain (w : nfilter) : cx := csum nn (fun q => csum (ms q) (fun m => conj (w q m) * (cr p * s q m))).
  Lemma cross_source k w : (k < nn)%nat -> cross v T (out w) (fun t => y k t ref) = conj (s k ref) * gain w.
  Proof.
    intros Hk. rewrite output_cross. unfold gain. rewrite <- csum_scale. apply csum_ext. intros q Hq. rewrite <- csum_scale. apply csum_ext. intros m Hm.
    change (cross v T (fun t => y q t m) (fun t => y k t ref)) with (speech_corr y v T q m k ref).
    rewrite (Hs q m k ref Hq Hm Hk (Href k Hk)). ring.
  Qed.
  Lemma error_source k w : (k < nn)%nat ->
    err k w = (re (avg_over v true T (fun t => cr (sq (out w t)))) - 2 * re (conj (s k ref) * gain w)%cx + p * sq (s k ref))%R.
  Proof.
    intros Hk. unfold error, est_error. rewrite <- (cross_source k w Hk). unfold cross. f_equal.
    assert (A := Hs k ref k ref Hk (Href k Hk) Hk (Href k Hk)). unfold speech_corr in A. rewrite <- sq_conj in A.
    rewrite (avg_ext v true T _ (fun t => y k t ref * conj (y k t ref))) by (intros; apply sq_conj).
    rewrite (avg_ext v false T _ (fun t => y k t ref * conj (y k t ref))) by (intros; apply sq_conj).
    rewrite A. cbn. ring.
  Qed.
  Definition scaled (g : cx) (w : nfilter) : nfilter := fun q m => g * w q m.
  Lemma output_scaled g w t : out (scaled g w) t = conj g * out w t.
  Proof.
    unfold output, scaled. rewrite <- csum_scale. apply csum_ext. intros q _. rewrite <- csum_scale. apply csum_ext. intros m _. rewrite conj_mul. ring.
  Qed.
  Lemma gain_scaled g w : gain (scaled g w) = conj g * gain w.
  Proof.
    unfold gain, scaled. rewrite <- csum_scale. apply csum_ext. intros q _. rewrite <- csum_scale. apply csum_ext. intros m _. rewrite conj_mul. ring.
  Qed.
  (** The same output, up to a factor, serves all the nodes equally well. *)
  Lemma error_scaled k q w : (k < nn)%nat -> (q < nn)%nat -> s q ref <> czero -> s k ref <> czero ->
    (err k (scaled (conj (s k ref * cinv (s q ref))) w) / sq (s k ref) = err q w / sq (s q ref))%R.
  Proof.
    intros Hk Hq Hne Hnk. rewrite !error_source by assumption. rewrite gain_scaled, conj_conj.
    set (r := s k ref * cinv (s q ref)).
    rewrite (avg_ext v true T _ (fun t => cr (sq r) * cr (sq (out w t)))).
    2:{ intros t _. rewrite output_scaled, conj_conj, sq_mul. apply cx_eq; cbn; ring. }
    rewrite avg_scale, re_scale.
    assert (E : conj (s k ref) * (r * gain w) = cr (sq r) * (conj (s q ref) * gain w)).
    { rewrite sq_conj. unfold r. rewrite conj_mul.
      transitivity (s k ref * cinv (s q ref) * conj (s k ref) * gain w * conj cone); [replace (conj cone) with cone by (apply cx_eq; cbn; ring); ring|].
      rewrite <- (cinv_r (s q ref) Hne), conj_mul. ring. }
    rewrite E, re_scale. unfold r. rewrite sq_mul. assert (A := sq_cinv _ Hne). assert (B := sq_pos _ Hne). assert (C := sq_pos _ Hnk).
    replace (sq (cinv (s q ref))) with (/ sq (s q ref))%R by (apply Rmult_eq_reg_l with (sq (s q ref)); [rewrite A; field; lra | lra]).
    field. lra.
  Qed.
End Src.
