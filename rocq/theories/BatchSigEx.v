(** A network of two single-sensor nodes, for the examples. *)
From Verif Require Import Base BaseFacts Cx CxFacts Scm ScmSpec ScmFacts ScmFacts2 Ext Buffers Batch BatchFacts BatchSig BatchSigSpec BatchSigFacts BatchSigFacts2 BatchSigFacts3 BatchSigFacts4 BatchSigFacts5 BatchSigFacts6.
From Coq Require Import Reals Lra.
Local Open Scope R_scope.
Local Open Scope cx_scope.

(** Four frames with the source, two of noise alone. *)
Definition ex_v := [true; true; true; true; false; false].
Definition ex_ys (k : nat) : list stft :=
  map (fun x _ _ => cr x) match k with O => [2; 2; 0; 0; 1; 1]%R | _ => [2; 0; 2; 0; 1; -1]%R end.
Definition ex_ms (k : nat) : nat := 1%nat.
Definition ex_vads (k : nat) : list bool := ex_v.
Definition ex_nbrs (k : nat) : list nat := others 2 k.
(** inverse of 2 x 2 matrices *)
Definition det2 (a : mat) : cx := a 0%nat 0%nat * a 1%nat 1%nat - a 0%nat 1%nat * a 1%nat 0%nat.
Definition inv2 (n : nat) (a : mat) : mat := fun i j =>
  cinv (det2 a) * match i, j with O, O => a 1%nat 1%nat | O, _ => czero - a 0%nat 1%nat | _, O => czero - a 1%nat 0%nat | _, _ => a 0%nat 0%nat end.
Lemma inv2_ok a : det2 a <> czero -> is_inverse 2 a (inv2 2 a).
Proof.
  intros H. assert (E := cinv_r _ H). unfold is_inverse, mat_eq, mmul, inv2, ident. set (d := cinv (det2 a)) in *. unfold det2 in E.
  split; intros i j Hi Hj; destruct i as [|[|i]]; try lia; destruct j as [|[|j]]; try lia; cbn [csum Nat.eqb]; try (rewrite <- E; ring); ring.
Qed.

Lemma ex_data : data_ok 2 ex_ms ex_ys ex_vads 0 6.
Proof. intros k Hk. destruct k as [|[|k]]; [| |lia]; (split; [unfold ex_ms; lia|]; split; [reflexivity|]; split; [apply le_n|]; split; apply Nat.ltb_lt; reflexivity). Qed.
Lemma ex_good k : (k < 2)%nat -> good_nbrs 2 ex_nbrs k.
Proof. intros _. apply others_good. reflexivity. Qed.
Lemma ex_kind b : n_kind ex_v b 6 = if b then 4%nat else 2%nat.
Proof. destruct b; reflexivity. Qed.
Ltac ex_num := unfold avg_over; rewrite ex_kind; apply cx_eq; cbn; field.
Lemma ex_source : single_source 2 ex_ms (fun q t m => frame_at (ex_ys q) t 0%nat m) ex_v 6 1 (fun _ _ => cone).
Proof.
  intros q m q' m' Hq _ Hq' _. unfold speech_corr. destruct q as [|[|q]]; [| |lia]; (destruct q' as [|[|q']]; [| |lia]); ex_num.
Qed.
(** what multiplies the other node's signal in node [k]'s observations *)
Definition ex_rho (ti : bool) (es : list coefs) (q : nat) : cx :=
  let e := nth q es (fun _ _ => czero) in if ti then e 0%nat 0%nat * cinv (e 0%nat 1%nat) else e 0%nat 0%nat.
Lemma ex_tilde ti es k t : (k < 2)%nat -> (t < 6)%nat ->
  y_tilde 2 ex_ms ex_ys ex_nbrs ti es k t 0%nat 0%nat = frame_at (ex_ys k) t 0%nat 0%nat /\
  y_tilde 2 ex_ms ex_ys ex_nbrs ti es k t 0%nat 1%nat = conj (ex_rho ti es (1 - k)%nat) * frame_at (ex_ys (1 - k)%nat) t 0%nat 0%nat.
Proof.
  intros Hk _. split; [reflexivity|]. unfold y_tilde, ex_rho, fused, ti_fusion, ex_ms, ex_nbrs. destruct k as [|[|k]]; [| |lia]; destruct ti; cbn [Nat.ltb Nat.leb csum Nat.eqb Nat.sub];
    rewrite ?conj_mul; try ring; cbn; apply cx_eq; cbn; ring.
Qed.
Lemma ex_cov ti es k i j : (k < 2)%nat -> (i < 2)%nat -> (j < 2)%nat ->
  let r := ex_rho ti es (1 - k)%nat in
  fst (tilde_covmats 2 ex_ms ex_ys ex_vads ex_nbrs ti es k) 0%nat i j =
    match i, j with O, O => cr 2 | O, _ => r | _, O => conj r | _, _ => cr 2 * (conj r * r) end /\
  snd (tilde_covmats 2 ex_ms ex_ys ex_vads ex_nbrs ti es k) 0%nat i j =
    match i, j with O, O => cr 1 | O, _ => czero | _, O => czero | _, _ => conj r * r end.
Proof.
  intros Hk Hi Hj r. unfold tilde_covmats. change (ex_vads k) with ex_v. replace (length (ex_ys k)) with 6%nat by (destruct k as [|[|k]]; reflexivity).
  destruct (batch_rmat (y_tilde 2 ex_ms ex_ys ex_nbrs ti es k) ex_v 6 (le_n _) ltac:(apply Nat.ltb_lt; reflexivity) ltac:(apply Nat.ltb_lt; reflexivity) 0 i j) as [-> ->].
  assert (A : forall b, rmat ex_v 6 (fun t c => y_tilde 2 ex_ms ex_ys ex_nbrs ti es k t 0%nat c) b i j =
    match i with O => cone | _ => conj r end * match j with O => cone | _ => r end *
    avg_over ex_v b 6 (fun t => frame_at (ex_ys (match i with O => k | _ => 1 - k end)%nat) t 0%nat 0%nat * conj (frame_at (ex_ys (match j with O => k | _ => 1 - k end)%nat) t 0%nat 0%nat))).
  { intros b. unfold rmat. rewrite <- avg_scale. apply avg_ext. intros t Ht. destruct (ex_tilde ti es k t Hk Ht) as [E0 E1].
    destruct i as [|[|i]]; [| |lia]; (destruct j as [|[|j]]; [| |lia]); rewrite ?E0, ?E1; rewrite ?conj_mul, ?conj_conj; fold r; ring. }
  rewrite !A. clear A.
  assert (B : forall b a c, (a < 2)%nat -> (c < 2)%nat -> avg_over ex_v b 6 (fun t => frame_at (ex_ys a) t 0%nat 0%nat * conj (frame_at (ex_ys c) t 0%nat 0%nat)) =
     cr (if Nat.eqb a c then if b then 2 else 1 else if b then 1 else 0)%R).
  { intros b a c Ha Hc. destruct a as [|[|a]]; [| |lia]; (destruct c as [|[|c]]; [| |lia]); destruct b; ex_num. }
  destruct k as [|[|k]]; [| |lia]; destruct i as [|[|i]]; try lia; (destruct j as [|[|j]]; [| |lia]); rewrite !B by (cbn; lia); cbn [Nat.eqb Nat.sub]; split; apply cx_eq; cbn; ring.
Qed.
Lemma ex_inverse ti es k : (k < 2)%nat -> ex_rho ti es (1 - k)%nat <> czero ->
  let a := fst (tilde_covmats 2 ex_ms ex_ys ex_vads ex_nbrs ti es k) 0%nat in is_inverse 2 a (inv2 2 a).
Proof.
  intros Hk Hr a. apply inv2_ok. unfold det2, a. set (r := ex_rho ti es (1 - k)%nat) in *.
  rewrite (proj1 (ex_cov ti es k 0 0 Hk ltac:(lia) ltac:(lia))), (proj1 (ex_cov ti es k 0 1 Hk ltac:(lia) ltac:(lia))),
    (proj1 (ex_cov ti es k 1 0 Hk ltac:(lia) ltac:(lia))), (proj1 (ex_cov ti es k 1 1 Hk ltac:(lia) ltac:(lia))). fold r.
  assert (P := sq_pos r Hr). intros E. assert (F : re (cr 2 * (cr 2 * (conj r * r)) - r * conj r) = (3 * sq r)%R) by (unfold sq; cbn; ring).
  rewrite E in F. cbn in F. lra.
Qed.
(** the updated filter *)
Lemma ex_new ti es k : (k < 2)%nat -> ex_rho ti es (1 - k)%nat <> czero ->
  let w := new_w ex_ms ex_nbrs ti 0 inv2 k (tilde_covmats 2 ex_ms ex_ys ex_vads ex_nbrs ti es k) 0%nat in
  w 0%nat = cr (/ 3) /\ w 1%nat = cr (/ 3) * cinv (ex_rho ti es (1 - k)%nat).
Proof.
  intros Hk Hr w. assert (Hi := ex_inverse ti es k Hk Hr). set (r := ex_rho ti es (1 - k)%nat) in *.
  assert (D : dim ex_ms ex_nbrs ti k = 2%nat) by (destruct k as [|[|k]]; [| |lia]; destruct ti; reflexivity).
  assert (S := update_w_solves 2 0 _ _ (snd (tilde_covmats 2 ex_ms ex_ys ex_vads ex_nbrs ti es k) 0%nat) ltac:(lia) Hi).
  assert (U : solves 2 (fst (tilde_covmats 2 ex_ms ex_ys ex_vads ex_nbrs ti es k) 0%nat) (fun i => match i with O => cr (/ 3) | _ => cr (/ 3) * cinv r end)
     (fun i => fst (tilde_covmats 2 ex_ms ex_ys ex_vads ex_nbrs ti es k) 0%nat i 0%nat - snd (tilde_covmats 2 ex_ms ex_ys ex_vads ex_nbrs ti es k) 0%nat i 0%nat)).
  { intros i Hlt. cbn [csum]. destruct (ex_cov ti es k i 0 Hk Hlt ltac:(lia)) as [-> ->]. rewrite (proj1 (ex_cov ti es k i 1 Hk Hlt ltac:(lia))). fold r.
    assert (E := cinv_r r Hr). destruct i as [|[|i]]; [| |lia].
    - transitivity (cr 2 * cr (/ 3) + cr (/ 3) * (r * cinv r)); [ring|]. rewrite E. apply cx_eq; cbn; field.
    - transitivity (conj r * cr (/ 3) + cr 2 * conj r * cr (/ 3) * (r * cinv r)); [ring|]. rewrite E. apply cx_eq; cbn; field. }
  assert (V := solution_unique 2 _ _ _ _ _ Hi S U). unfold w, new_w. rewrite D.
  split; [apply (V 0%nat); lia | apply (V 1%nat); lia].
Qed.

(** All filters are initially the same, with no zero coefficient. *)
Definition ex_bs (e : coefs) (iters : nat) : list (bnode coefs coefs) := repeat (mkBN 0 (repeat e (S iters)) (repeat e (S iters))) 2.
Lemma ex_ready e iters : ready iters (ex_bs e iters).
Proof. intros b Hb. apply repeat_spec in Hb. subst b. cbn [b_i b_w b_ext]. rewrite repeat_length. lia. Qed.
Lemma ex_init e iters k : (k < 2)%nat -> int_filter (ex_bs e iters) 0 k = e /\ ext_filter (ex_bs e iters) 0 k = e.
Proof. intros Hk. destruct k as [|[|k]]; [| |lia]; split; reflexivity. Qed.
Lemma ex_len e iters : length (ex_bs e iters) = 2%nat. Proof. reflexivity. Qed.

Lemma cr_ne x : x <> 0%R -> cr x <> czero.
Proof. intros H E. apply H. injection E. auto. Qed.
Lemma cinv_ne z : z <> czero -> cinv z <> czero.
Proof. intros H E. assert (A := cinv_r z H). rewrite E in A. assert (B : re (z * czero) = 1%R) by (rewrite A; reflexivity). cbn in B. lra. Qed.
Definition no_zero (e : nat -> coefs) : Prop := forall q, (q < 2)%nat -> e q 0%nat 0%nat <> czero /\ e q 0%nat 1%nat <> czero.
Lemma ex_rho_ne ti bs j q : (q < 2)%nat -> no_zero (ext_filter bs j) -> ex_rho ti (ext_filters 2 bs j) q <> czero.
Proof.
  intros Hq H. destruct (H q Hq) as [H0 H1].
  assert (E : forall m, nth q (ext_filters 2 bs j) (fun _ _ => czero) 0%nat m = ext_filter bs j q 0%nat m) by (intros m; apply (ext_of_filters 2 bs j 0 q m Hq)).
  unfold ex_rho. destruct ti; rewrite !E; [apply cmul_ne; [exact H0 | apply cinv_ne; exact H1] | exact H0].
Qed.
Lemma ex_no_zero ti iters up bs bs' : no_zero (int_filter bs 0) -> no_zero (ext_filter bs 0) ->
  steps (tilde_covmats 2 ex_ms ex_ys ex_vads ex_nbrs ti) (new_w ex_ms ex_nbrs ti 0 inv2) (bext_rule ex_ms 0 Fusion) 2 iters up bs bs' ->
  forall j, (j <= iters)%nat -> no_zero (int_filter bs' j) /\ no_zero (ext_filter bs' j).
Proof.
  intros Hi He [Hz H] j. induction j as [|j IH]; intros Hj.
  - split; intros q Hq; destruct (Hz q) as [Z1 Z2]; [rewrite Z1; auto | rewrite Z2; auto].
  - destruct IH as [A B]; [lia|].
    assert (C : no_zero (int_filter bs' (S j))).
    { intros q Hq. destruct (H j q ltac:(lia) Hq) as [E _]. rewrite E. destruct (up j q); [|apply A; exact Hq].
      assert (R := ex_rho_ne ti bs' j (1 - q) ltac:(lia) B). destruct (ex_new ti (ext_filters 2 bs' j) q Hq R) as [-> ->].
      split; [|apply cmul_ne; [|apply cinv_ne; exact R]]; apply cr_ne; lra. }
    split; [exact C|]. intros q Hq. destruct (H j q ltac:(lia) Hq) as [_ E]. rewrite E. apply C. exact Hq.
Qed.
Lemma ex_dim ti k : (k < 2)%nat -> dim ex_ms ex_nbrs ti k = 2%nat.
Proof. destruct k as [|[|k]]; [| |lia]; destruct ti; reflexivity. Qed.
Lemma ex_centr : let c := fst (centr_covmats 2 ex_ms ex_ys ex_vads) 0%nat in is_inverse 2 c (inv2 2 c) /\
  forall k i, (k < 2)%nat -> (i < 2)%nat -> centr_w 2 ex_ms ex_ys ex_vads 0 inv2 k 0%nat i = cr (/ 3).
Proof.
  cbv zeta. assert (Hv : forall k, (k < 2)%nat -> ex_vads k = ex_v) by reflexivity.
  assert (E : forall b i j, (i < 2)%nat -> (j < 2)%nat -> rmat ex_v 6 (fun t c => y_centr 2 ex_ms ex_ys t 0%nat c) b i j = cr (if Nat.eqb i j then if b then 2 else 1 else if b then 1 else 0)%R).
  { intros b i j Hi Hj. unfold rmat. destruct i as [|[|i]]; [| |lia]; (destruct j as [|[|j]]; [| |lia]); destruct b; ex_num. }
  assert (C : forall i j, (i < 2)%nat -> (j < 2)%nat -> fst (centr_covmats 2 ex_ms ex_ys ex_vads) 0%nat i j = cr (if Nat.eqb i j then 2 else 1)%R).
  { intros i j Hi Hj. unfold centr_covmats. rewrite (centr_vad_same 2 ex_vads ex_nbrs inv2 ex_v Hv ltac:(lia)). change (length (ex_ys 0)) with 6%nat.
    destruct (batch_rmat (y_centr 2 ex_ms ex_ys) ex_v 6 (le_n _) ltac:(apply Nat.ltb_lt; reflexivity) ltac:(apply Nat.ltb_lt; reflexivity) 0 i j) as [-> _].
    rewrite (E true i j Hi Hj). reflexivity. }
  assert (I : is_inverse 2 (fst (centr_covmats 2 ex_ms ex_ys ex_vads) 0%nat) (inv2 2 (fst (centr_covmats 2 ex_ms ex_ys ex_vads) 0%nat))).
  { apply inv2_ok. unfold det2. rewrite !C by lia. cbn [Nat.eqb]. intros H. assert (A : re (cr 2 * cr 2 - cr 1 * cr 1) = 3%R) by (cbn; ring). rewrite H in A. cbn in A. lra. }
  split; [exact I|]. intros k i Hk Hi.
  assert (S := centr_solves 2 ex_ms ex_ys ex_vads ex_nbrs 0 6 inv2 ex_data ex_v Hv k 0 Hk I). change (offset ex_ms 2) with 2%nat in S.
  replace (offset ex_ms k + 0)%nat with k in S by (destruct k as [|[|k]]; [| |lia]; reflexivity).
  assert (U : solves 2 (rmat ex_v 6 (fun t c => y_centr 2 ex_ms ex_ys t 0%nat c) true) (fun _ => cr (/ 3))
     (fun i => rmat ex_v 6 (fun t c => y_centr 2 ex_ms ex_ys t 0%nat c) true i k - rmat ex_v 6 (fun t c => y_centr 2 ex_ms ex_ys t 0%nat c) false i k)).
  { intros a Ha. cbn [csum]. rewrite !E by lia. destruct k as [|[|k]]; [| |lia]; (destruct a as [|[|a]]; [| |lia]); apply cx_eq; cbn; field. }
  refine (solution_unique 2 _ (inv2 2 (fst (centr_covmats 2 ex_ms ex_ys ex_vads) 0%nat)) _ _ _ _ S U i Hi).
  refine (is_inverse_ext _ _ _ _ _ I). intros a b Ha Hb. rewrite C, E by assumption. reflexivity.
Qed.
