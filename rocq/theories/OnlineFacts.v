(** A run on a mixture and the runs on its two components advance together: all
    signals stored by the first are the sums of those of the other two. *)
From Verif Require Import Base BaseFacts Sched Buffers BufNat Chunk ChunkSpec ChunkFacts Level Cx CxFacts Wola WolaFacts Dist SroComp Online OnlineSpec.
From Coq Require Import Reals Lra.
Local Open Scope R_scope.
Add Ring cxr0 : cx_ring.

(** The three runs. *)
Inductive sel := SY | SS | SN.
Definition gR (s : sel) (p : R * R) : R := match s with SY => fst p + snd p | SS => fst p | SN => snd p end.
Definition gC (s : sel) (p : cx * cx) : cx := match s with SY => (fst p + snd p)%cx | SS => fst p | SN => snd p end.
(** [F s], for the three runs, is the image of one result. *)
Definition tri {X Y} (m : sel -> X -> Y) (F : sel -> res Y) : Prop := exists r, forall s, F s = rmap (m s) r.

Lemma tri_bind {X Y X' Y'} (m : sel -> X -> Y) (m' : sel -> X' -> Y') F G :
  tri m F -> (forall x, tri m' (fun s => G s (m s x))) -> tri m' (fun s => bind (F s) (G s)).
Proof.
  intros [r Hr] HG. destruct r as [x|e].
  - destruct (HG x) as [r' Hr']. exists r'. intros s. rewrite Hr. exact (Hr' s).
  - exists (Err e). intros s. now rewrite Hr.
Qed.
Lemma tri_ok {X Y} (m : sel -> X -> Y) F x : (forall s, F s = m s x) -> tri m (fun s => Ok (F s)).
Proof. intros H. exists (Ok x). intros s. cbn. now rewrite H. Qed.
Lemma tri_err {X Y} (m : sel -> X -> Y) e : tri m (fun _ => Err e).
Proof. now exists (Err e). Qed.
Lemma tri_ext {X Y} (m : sel -> X -> Y) F G : (forall s, F s = G s) -> tri m F -> tri m G.
Proof. intros H [r Hr]. exists r. intros s. now rewrite <- H. Qed.
Lemma tri_if {X Y} (m : sel -> X -> Y) (c : sel -> bool) b F G :
  (forall s, c s = b) -> tri m F -> tri m G -> tri m (fun s => if c s then F s else G s).
Proof.
  intros H HF HG. apply (tri_ext _ (fun s => if b then F s else G s)); [intros s; now rewrite H|]. now destruct b.
Qed.
Definition same (s : sel) {X} (x : X) : X := x.
Lemma tri_same {X Y Y'} (r : res X) (m' : sel -> Y -> Y') G :
  (forall x, r = Ok x -> tri m' (fun s => G s x)) -> tri m' (fun s => bind r (G s)).
Proof. destruct r as [x|e]; intros H; [exact (H x eq_refl)|apply tri_err]. Qed.
Lemma tri_mapM {A X Y} (m : sel -> X -> Y) (F : sel -> A -> res Y) l :
  (forall a, In a l -> tri m (fun s => F s a)) -> tri (fun s => map (m s)) (fun s => mapM (F s) l).
Proof.
  induction l as [|a l IH]; intros H; cbn [mapM]; [now apply (tri_ok _ _ [])|].
  apply (tri_bind m); [apply H; now left|]. intros x. apply (tri_bind (fun s => map (m s))); [apply IH; intros; apply H; now right|].
  intros xs. now apply (tri_ok _ _ (x :: xs)).
Qed.
Lemma tri_get {X Y} (m : sel -> X -> Y) l i : tri m (fun s => get (map (m s) l) i).
Proof. exists (get l i). intros s. apply get_map. Qed.

(** Reals *)
Lemma gR0 s : gR s (0, 0) = 0.
Proof. destruct s; cbn; lra. Qed.
Lemma gC0 s : gC s (czero, czero) = czero.
Proof. destruct s; cbn; [ring|reflexivity..]. Qed.
Lemma lin1 (f : sel -> R) : f SY = f SS + f SN -> forall s, f s = gR s (f SS, f SN).
Proof. intros H []; cbn; auto. Qed.
Lemma lin1c (f : sel -> cx) : f SY = (f SS + f SN)%cx -> forall s, f s = gC s (f SS, f SN).
Proof. intros H []; cbn; auto. Qed.
Lemma nth_gR s P i : nth i (map (gR s) P) 0 = gR s (nth i P (0, 0)).
Proof. rewrite <- (gR0 s) at 1. apply map_nth. Qed.
Lemma nth_gC s P i : nth i (map (gC s) P) czero = gC s (nth i P (czero, czero)).
Proof. rewrite <- (gC0 s) at 1. apply map_nth. Qed.
Lemma pad_gR s n P : repeat 0 n ++ map (gR s) P = map (gR s) (repeat (0, 0) n ++ P).
Proof. now rewrite map_app, repeat_map, gR0. Qed.
(** Lists computed index by index *)
Lemma lin_seq (f : sel -> nat -> R) n : (forall i, f SY i = f SS i + f SN i) ->
  exists P, forall s, map (f s) (seq 0 n) = map (gR s) P.
Proof.
  intros H. exists (map (fun i => (f SS i, f SN i)) (seq 0 n)). intros s. rewrite map_map. apply map_ext. intros i. apply (lin1 (fun s => f s i)), H.
Qed.
Lemma lin_seqc (f : sel -> nat -> cx) n : (forall i, f SY i = (f SS i + f SN i)%cx) ->
  exists P, forall s, map (f s) (seq 0 n) = map (gC s) P.
Proof.
  intros H. exists (map (fun i => (f SS i, f SN i)) (seq 0 n)). intros s. rewrite map_map. apply map_ext. intros i. apply (lin1c (fun s => f s i)), H.
Qed.

(** Time-domain filtering *)
Lemma dot_add P : forall w,
  fold_right Rplus 0 (map (fun p => fst p * snd p) (combine (map (gR SY) P) w)) =
  fold_right Rplus 0 (map (fun p => fst p * snd p) (combine (map (gR SS) P) w)) +
  fold_right Rplus 0 (map (fun p => fst p * snd p) (combine (map (gR SN) P) w)).
Proof. induction P as [|p P IH]; intros [|a w]; cbn; try lra. rewrite IH. cbn. lra. Qed.
Lemma tri_dot P w : tri gR (fun s => np_dot (map (gR s) P) w).
Proof.
  unfold np_dot. apply (tri_if _ _ (Nat.eqb (length P) (length w))); [intros s; now rewrite map_length| |apply tri_err].
  eapply tri_ok. apply (lin1 (fun s => fold_right Rplus 0 (map (fun p => fst p * snd p) (combine (map (gR s) P) w)))). apply dot_add.
Qed.
Lemma tri_extract ids a P : tri (fun s => map (gR s)) (fun s => extract_few_samples ids a (map (gR s) P)).
Proof.
  unfold extract_few_samples. apply tri_mapM. intros id _.
  apply (tri_ext _ (fun s => np_dot (map (gR s) (py_slice (id + 1) (id + 1 + Z.of_nat (length a)) (repeat (0, 0) (length a) ++ P ++ repeat (0, 0) (length a)))) (rev a)));
    [|apply tri_dot].
  intros s. rewrite <- py_slice_map, !map_app, !repeat_map, !gR0. reflexivity.
Qed.
Definition sum_col (s : sel) (cols : list (list (R * R))) (i : nat) : R :=
  fold_right Rplus 0 (map (fun c => nth i c 0) (map (map (gR s)) cols)).
Lemma sum_col_add cols i : sum_col SY cols i = sum_col SS cols i + sum_col SN cols i.
Proof.
  unfold sum_col. induction cols as [|c cols IH]; cbn [map fold_right]; [lra|]. rewrite IH, !nth_gR. cbn [gR]. lra.
Qed.
Lemma tri_filter_sum ids (w : list (list R)) (Y : list (list (R * R))) n :
  tri (fun s => map (gR s)) (fun s =>
    do cols <- mapM (fun m => do a <- get w m; do y <- get (map (map (gR s)) Y) m; extract_few_samples ids a y) (seq 0 (length (map (map (gR s)) Y)));
    Ok (map (fun i => fold_right Rplus 0 (map (fun c => nth i c 0) cols)) (seq 0 n))).
Proof.
  apply (tri_bind (fun s => map (map (gR s)))).
  - apply (tri_ext _ (fun s => mapM (fun m => do a <- get w m; do y <- get (map (map (gR s)) Y) m; extract_few_samples ids a y) (seq 0 (length Y))));
      [intros s; now rewrite map_length|]. apply tri_mapM. intros m _. apply tri_same. intros a _.
    apply (tri_bind (fun s => map (gR s))); [apply tri_get|]. intros y. apply tri_extract.
  - intros cols. destruct (lin_seq (fun s i => sum_col s cols i) n) as [P HP]; [apply sum_col_add|]. eapply tri_ok. exact HP.
Qed.
Lemma tri_compress_few len w Y L : tri (fun s => map (gR s)) (fun s => compress_few_samples len w (map (map (gR s)) Y) L).
Proof. apply tri_filter_sum. Qed.

(** Back to the time domain *)
Lemma lin_idft n (f : sel -> nat -> cx) : (forall k, f SY k = (f SS k + f SN k)%cx) -> forall m, idft n (f SY) m = (idft n (f SS) m + idft n (f SN) m)%cx.
Proof.
  intros H m. unfold idft. rewrite (csum_ext n _ (fun k => f SS k * cis (2 * PI * INR k * INR m / INR n) + f SN k * cis (2 * PI * INR k * INR m / INR n))%cx).
  - rewrite csum_add. ring.
  - intros i _. rewrite H. ring.
Qed.
Lemma lin_dft n (f : sel -> nat -> cx) : (forall k, f SY k = (f SS k + f SN k)%cx) -> forall m, dft n (f SY) m = (dft n (f SS) m + dft n (f SN) m)%cx.
Proof.
  intros H m. unfold dft. rewrite (csum_ext n _ (fun k => f SS k * cis (- (2 * PI * INR m * INR k / INR n)) + f SN k * cis (- (2 * PI * INR m * INR k / INR n)))%cx).
  - apply csum_add.
  - intros i _. rewrite H. ring.
Qed.
Definition rp (p : cx * cx) : cx * cx := (cr (re (fst p)), cr (re (snd p))).
Lemma gC_rp s p : gC s (rp p) = cr (re (gC s p)).
Proof. destruct s; cbn; [|reflexivity..]. now rewrite cr_add. Qed.
Definition cp (p : cx * cx) : cx * cx := (conj (fst p), conj (snd p)).
Lemma gC_cp s p : gC s (cp p) = conj (gC s p).
Proof. destruct s; cbn; [|reflexivity..]. now rewrite conj_add. Qed.
Lemma real_ends_gC P : exists Q, length Q = length P /\ forall s, real_ends (map (gC s) P) = map (gC s) Q.
Proof.
  set (x1 := upd 0 (rp (nth 0 P (czero, czero))) P).
  exists (upd (length P - 1) (rp (nth (length P - 1) x1 (czero, czero))) x1). split; [unfold x1; now rewrite !upd_length|].
  intros s. unfold real_ends. rewrite map_length, nth_gC, <- gC_rp, upd_map. fold x1. rewrite nth_gC, <- gC_rp, upd_map. reflexivity.
Qed.
Lemma removelast_map {A B} (f : A -> B) l : removelast (map f l) = map f (removelast l).
Proof. induction l as [|a [|b l] IH]; cbn in *; [reflexivity..|]. now rewrite IH. Qed.
Lemma tri_back P n : tri (fun s p => (map (gC s) (fst p), map (gC s) (snd p))) (fun s => back_to_time_domain (map (gC s) P) n).
Proof.
  unfold back_to_time_domain. apply (tri_if _ _ (negb (Nat.eqb (2 * length P) (n + 2)))); [intros s; now rewrite map_length|apply tri_err|].
  apply (tri_if _ _ (Nat.eqb n 0)); [reflexivity|apply tri_err|].
  destruct (real_ends_gC P) as (Q & _ & HQ).
  set (F := Q ++ removelast (rev (map cp (removelast Q)))).
  assert (HF : forall s, real_ends (map (gC s) P) ++ removelast (rev (map conj (removelast (real_ends (map (gC s) P))))) = map (gC s) F).
  { intros s. unfold F. rewrite HQ, map_app. f_equal. rewrite <- (removelast_map (gC s) (rev _)), map_rev, map_map, (removelast_map (gC s) Q), map_map. do 2 f_equal.
    apply map_ext. intros p. symmetry. apply gC_cp. }
  destruct (lin_seqc (fun s => idft n (fun k => nth k (map (gC s) F) czero)) n) as [T HT].
  { intros i. apply lin_idft with (f := fun s k => nth k (map (gC s) F) czero). intros k. now rewrite !nth_gC. }
  apply (tri_ok _ _ (Q, T)). intros s. cbn [fst snd]. rewrite HF, HQ, HT. reflexivity.
Qed.
