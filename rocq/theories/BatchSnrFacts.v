(** Lemmas on the speech-only and noise-only batch runs. *)
From Verif Require Import Base Cx CxFacts Scm Ext Batch BatchSig BatchSigSpec BatchSigFacts BatchSigFacts2 BatchSigFacts3 BatchSigFacts4 BatchSigFacts6 BatchSnr WolaFacts.
From Coq Require Import Reals Lra.
Open Scope cx_scope.

Lemma csum_nil n (g : nat -> cx) : (forall i, (i < n)%nat -> g i = czero) -> csum n g = czero.
Proof. intros H. rewrite (csum_ext n g (fun _ => czero) H). apply csum_0. Qed.

Lemma update_w_nil n ref inv a b : (forall i j, a i j = b i j) -> forall i, update_w n ref inv a b i = czero.
Proof.
  intros H i. unfold update_w, mvec at 1. apply csum_nil. intros j _. unfold mvec. rewrite csum_nil; [ring|]. intros l _. unfold msub. rewrite H. ring.
Qed.

Section Add.
  Variables (nn : nat) (ms : nat -> nat) (nbrs : nat -> list nat) (ti : bool) (data speech noise : nat -> list stft).
  Hypothesis HA : forall q t f c, frame_at (data q) t f c = frame_at (speech q) t f c + frame_at (noise q) t f c.
  Lemma fused_add p q t f : fused ms data p q t f = fused ms speech p q t f + fused ms noise p q t f.
  Proof. unfold fused. rewrite <- csum_add. apply csum_ext. intros m _. rewrite HA. ring. Qed.
  Lemma y_tilde_add es k t f c : y_tilde nn ms data nbrs ti es k t f c = y_tilde nn ms speech nbrs ti es k t f c + y_tilde nn ms noise nbrs ti es k t f c.
  Proof.
    unfold y_tilde. destruct (Nat.ltb c (ms k)); [apply HA|]. destruct ti.
    - rewrite <- csum_add. apply csum_ext. intros q _. destruct (Nat.eqb q k); [ring | apply fused_add].
    - destruct (nth_error (nbrs k) (c - ms k)); [apply fused_add | ring].
  Qed.
  Lemma dhat_add es w k t f : dhat nn ms nbrs ti data es w k t f = dhat nn ms nbrs ti speech es w k t f + dhat nn ms nbrs ti noise es w k t f.
  Proof. unfold dhat. rewrite <- csum_add. apply csum_ext. intros c _. rewrite y_tilde_add. ring. Qed.
End Add.

(** The nodes that update in iteration [j]. *)
Definition updates (sequential : bool) (nn j k : nat) : bool := if sequential then Nat.eqb (j mod nn) k else true.
Lemma batch_steps nn ms vads nbrs ti ref inv mode sequential iters data speech noise g bs : length bs = nn -> (0 < nn)%nat -> ready iters bs ->
  exists r, danse_batch nn ms vads nbrs ti ref inv mode sequential iters data speech noise g bs = Ok r /\
    steps (tilde_covmats nn ms (yin data speech noise g) vads nbrs ti) (new_w ms nbrs ti ref inv) (bext_rule ms ref mode) nn iters (updates sequential nn) bs r.
Proof.
  intros Hn H0 Hr. unfold danse_batch, updates. destruct sequential.
  - apply (seq_run_steps nn ms (yin data speech noise g) vads nbrs ti ref inv mode iters bs Hn Hr H0).
  - apply (sim_run_steps nn ms (yin data speech noise g) vads nbrs ti ref inv mode iters bs Hn Hr).
Qed.

(** One node with one sensor and two frames, the first with speech. *)
Definition two (a b : R) : nat -> list stft := fun _ => [(fun _ _ => cr a); (fun _ _ => cr b)].
Definition start : list (bnode coefs coefs) := let w := fun _ _ => cone in [mkBN 0 [w; w] [w; w]].
Lemma one_node inv sequential data speech noise g a b : (a <> 0)%R -> yin data speech noise g = two a b ->
  (forall m, m O O <> czero -> inv 1%nat m O O = cinv (m O O)) ->
  exists o, output 1 (fun _ => 1%nat) (fun _ => [true; false]) (fun _ => []) false 0 inv Fusion sequential 1 data speech noise g start = Ok o /\
    o O O O = cr ((1 - b * b / (a * a)) * a).
Proof.
  intros Ha Hy Hinv. unfold output. 
  destruct (batch_steps 1 (fun _ => 1%nat) (fun _ => [true; false]) (fun _ => []) false 0 inv Fusion sequential 1 data speech noise g start eq_refl ltac:(lia)) as (r & E & _ & St).
  { intros b0 [<-|[]]. cbn. lia. }
  rewrite E. cbn [bind]. eexists. split; [reflexivity|]. cbv beta. destruct (St O O ltac:(lia) ltac:(lia)) as [S1 _].
  assert (U : updates sequential 1 0 0 = true) by (destruct sequential; reflexivity). rewrite U in S1. rewrite S1, Hy.
  unfold dhat, dim. cbn [length Nat.add csum Nat.sub]. unfold new_w, dim. cbn [length Nat.add].
  unfold tilde_covmats. cbn [two length map seq]. unfold covmats_batch. cbn [length Nat.ltb Nat.leb Nat.eqb select combine filter map fst snd Bool.eqb mean_outer or_zero csum nth].
  unfold y_tilde. cbn [Nat.ltb Nat.leb frame_at nth two].
  unfold update_w, mvec, msub. cbn [csum unit_vec Nat.eqb INR].
  rewrite Hinv.
  - unfold two, frame_at. cbn [nth]. apply cx_eq; cbn; field; lra.
  - intros E0. apply (f_equal re) in E0. unfold two, frame_at in E0. cbn in E0. assert (a * a = 0)%R by (rewrite <- E0; field). nra.
Qed.

(** The estimate of a node is the output of its network-wide filter. *)
Lemma dhat_netwide nn ms nbrs ti ys r j w k t f : (k < nn)%nat -> good_nbrs nn nbrs k ->
  dhat nn ms nbrs ti ys (ext_filters nn r j) w k t f =
  BatchSigSpec.output nn ms (fun q t m => frame_at (ys q) t f m) (netwide ti ms nbrs k (w f) (fun q => ext_filter r j q f)) t.
Proof.
  intros Hk Hg. rewrite <- (output_ext nn ms ys f (netwide ti ms nbrs k (w f) (ext_of (ext_filters nn r j) f))).
  - rewrite (netwide_output nn ms ys (fun _ => []) nbrs ti (ext_filters nn r j) k f (w f) t Hk Hg). reflexivity.
  - intros q m Hq _. apply netwide_filters. exact Hq.
Qed.
