(** The steps of a run, for a mixture and its components (see OnlineFacts.v). *)
From Verif Require Import Base BaseFacts Sched Buffers BufNat Chunk ChunkSpec ChunkFacts Level Cx CxFacts Wola WolaFacts Dist SroComp Online OnlineSpec OnlineFacts.
From Coq Require Import Reals Lra.
Local Open Scope R_scope.
Add Ring cxr1 : cx_ring.

Lemma combine_map_r {A B C} (f : B -> C) (l : list A) r : combine l (map f r) = map (fun p => (fst p, f (snd p))) (combine l r).
Proof. revert r; induction l as [|a l IH]; intros [|b r]; cbn; try reflexivity. now rewrite IH. Qed.
Lemma re_gC s p : re (gC s p) = gR s (re (fst p), re (snd p)).
Proof. destruct s; reflexivity. Qed.

Lemma tri_fit n P : tri (fun s => map (gR s)) (fun s => fit n (map (gR s) P)).
Proof.
  unfold fit. apply (tri_if _ _ (Nat.eqb (length P) n)); [intros s; now rewrite map_length|now eapply tri_ok|].
  apply (tri_if _ _ (Nat.eqb (length P) 1)); [intros s; now rewrite map_length| |apply tri_err].
  eapply tri_ok with (x := repeat (nth 0 P (0, 0)) n). intros s. now rewrite repeat_map, nth_gR.
Qed.
Definition padd (a b : R * R) : R * R := (fst a + fst b, snd a + snd b).
Lemma vadd_gR s P Q : vadd (map (gR s) P) (map (gR s) Q) = map (gR s) (map (fun p => padd (fst p) (snd p)) (combine P Q)).
Proof.
  unfold vadd. revert Q. induction P as [|p P IH]; intros [|q Q]; cbn; try reflexivity. rewrite IH. f_equal. destruct s; cbn; lra.
Qed.
Lemma splice_map {A B} (f : A -> B) a b x d : splice a b (map f x) (map f d) = map f (splice a b x d).
Proof. unfold splice. rewrite map_length, !map_app, firstn_map, skipn_map. reflexivity. Qed.

Lemma dhat_gC (w : list (list cx)) (Y : list (list (cx * cx))) : exists D, forall s,
  map (fun p => csum (length w) (fun c => (conj (nth (fst p) (nth c w []) czero) * nth c (snd p) czero)%cx))
    (combine (seq 0 (length (map (map (gC s)) Y))) (map (map (gC s)) Y)) = map (gC s) D.
Proof.
  set (f := fun (s : sel) (p : nat * list (cx * cx)) =>
    csum (length w) (fun c => (conj (nth (fst p) (nth c w []) czero) * nth c (map (gC s) (snd p)) czero)%cx)).
  exists (map (fun p => (f SS p, f SN p)) (combine (seq 0 (length Y)) Y)). intros s.
  rewrite map_length, combine_map_r, !map_map. apply map_ext. intros p. cbn [fst snd].
  apply (lin1c (fun s => f s p)). unfold f. rewrite <- csum_add. apply csum_ext. intros c _. rewrite !nth_gC. cbn [gC]. ring.
Qed.

Lemma tri_wola Ns f w Y b e D : tri (fun s => map (gR s)) (fun s => wola_estimate Ns f w (map (map (gC s)) Y) b e (map (gR s) D)).
Proof.
  unfold wola_estimate. destruct (dhat_gC w Y) as [H HD].
  apply (tri_bind (fun s p => (map (gC s) (fst p), map (gC s) (snd p)))).
  { apply (tri_ext _ (fun s => back_to_time_domain (map (gC s) H) (length f))); [intros s; now rewrite HD|]. apply tri_back. }
  intros t. cbn [fst snd].
  destruct (lin_seq (fun s j => sqrt (INR Ns) * nth j f 0 * re (nth j (map (gC s) (snd t)) czero)) (length f)) as [Cu HC].
  { intros j. rewrite !nth_gC, !re_gC. cbn [gR fst snd]. ring. }
  apply (tri_bind (fun s => map (gR s))).
  - apply (tri_ext _ (fun s => fit (length (py_slice b e D)) (map (gR s) (if (length (py_slice b e D) <? length f)%nat then py_from (- Z.of_nat (length (py_slice b e D))) Cu else Cu)))).
    + intros s. rewrite HC, py_slice_map, map_length. destruct (_ <? _)%nat; [now rewrite py_from_map|reflexivity].
    + apply tri_fit.
  - intros a. eapply tri_ok. intros s. rewrite py_slice_map, vadd_gR, splice_map. reflexivity.
Qed.
Lemma tri_conv Ns f w Y e D : tri (fun s => map (gR s)) (fun s => conv_estimate Ns f w (map (map (gR s)) Y) e (map (gR s) D)).
Proof.
  unfold conv_estimate. apply tri_same. intros wIR _.
  set (ids := map _ (seq 0 Ns)).
  destruct (tri_filter_sum ids wIR Y Ns) as [r Hr].
  eapply tri_ext with (F := fun s => do a <- (do n <- rmap (map (gR s)) r; fit (length (py_slice (e - Z.of_nat Ns) e (map (gR s) D))) n);
                                     Ok (splice (e - Z.of_nat Ns) e a (map (gR s) D))).
  - intros s. rewrite <- Hr. now destruct (mapM _ _).
  - apply (tri_bind (fun s => map (gR s))).
    + apply (tri_bind (fun s => map (gR s))); [exists r; reflexivity|]. intros n.
      apply (tri_ext _ (fun s => fit (length (py_slice (e - Z.of_nat Ns) e D)) (map (gR s) n))); [intros s; now rewrite py_slice_map, map_length|]. apply tri_fit.
    + intros a. eapply tri_ok. intros s. apply splice_map.
Qed.
Lemma tri_estimate c w Y nch T b e D :
  tri (fun s => map (gR s)) (fun s => estimate c w (map (map (gC s)) Y) nch (map (map (gR s)) T) b e (map (gR s) D)).
Proof.
  unfold estimate. destruct (o_wola c); [|apply tri_conv]. destruct (negb _); [apply tri_err|apply tri_wola].
Qed.

Lemma spectra_gC N Ns h C : exists Y, forall s, spectra N Ns h (map (map (gR s)) C) = map (map (gC s)) Y.
Proof.
  set (f := fun (s : sel) b (col : list (R * R)) => (dft N (fun m => cr (nth m (map (gR s) col) 0 * nth m h 0)) b * cr (/ sqrt (INR Ns)))%cx).
  exists (map (fun b => map (fun col => (f SS b col, f SN b col)) C) (seq 0 (N / 2 + 1))). intros s.
  unfold spectra. rewrite map_map. apply map_ext. intros b. rewrite !map_map. apply map_ext. intros col.
  apply (lin1c (fun s => f s b col)). unfold f.
  rewrite (lin_dft N (fun s m => cr (nth m (map (gR s) col) 0 * nth m h 0))); [ring|].
  intros k. rewrite !nth_gR. cbn [gR]. rewrite <- cr_add. f_equal. ring.
Qed.
Lemma shifts_gC N psf Y : exists Z, forall s, apply_shifts N psf (map (map (gC s)) Y) = map (map (gC s)) Z.
Proof.
  set (f := fun (s : sel) (i : nat) (c : R * (cx * cx)) => (gC s (snd c) * cis (- (2 * PI / INR N * (INR i * fst c))))%cx).
  exists (map (fun p => map (fun c => (f SS (fst p) c, f SN (fst p) c)) (combine psf (snd p))) (combine (seq 0 (length Y)) Y)). intros s.
  unfold apply_shifts. rewrite map_length, combine_map_r, !map_map. apply map_ext. intros p. cbn [fst snd].
  rewrite combine_map_r, !map_map. apply map_ext. intros q. cbn [fst snd]. apply (lin1c (fun s => f s (fst p) q)). unfold f. cbn [gC]. ring.
Qed.

Lemma nat_chunk_ending {A B} (f : A -> B) zA zB : f zA = zB -> forall y e N,
  chunk_ending zB (map f y) e N = rmap (fun r => (map f (fst (fst r)), snd (fst r), snd r)) (chunk_ending zA y e N).
Proof.
  intros fz y e N. unfold chunk_ending. rewrite !py_slice_map, map_length.
  destruct (_ <? N)%Z; [|reflexivity]. destruct (_ <? 0)%Z; [reflexivity|]. cbn. now rewrite map_app, repeat_map, fz.
Qed.
Lemma tri_chunks (Y : list (list (R * R))) e N :
  tri (fun s => map (fun r => (map (gR s) (fst (fst r)), snd (fst r), snd r))) (fun s => mapM (fun col => chunk_ending 0 col e N) (map (map (gR s)) Y)).
Proof.
  exists (mapM (fun col => chunk_ending (0, 0) col e N) Y). intros s. rewrite mapM_map, <- mapM_rmap. apply mapM_ext. intros col _.
  apply nat_chunk_ending, gR0.
Qed.
Lemma chunk_cols_gR s (fr : list (list (R * R) * Z * Z)) :
  chunk_cols (map (fun r => (map (gR s) (fst (fst r)), snd (fst r), snd r)) fr) = map (map (gR s)) (map (fun r => fst (fst r)) fr).
Proof. unfold chunk_cols. rewrite !map_map. reflexivity. Qed.

(** Whole-chunk compression, when the previous blocks are silent together. *)
Lemma fused_gC N Ns h w C : exists P, forall s, fused_spectrum N Ns h w (map (map (gR s)) C) = map (gC s) P.
Proof.
  unfold fused_spectrum.
  destruct (lin_seqc (fun s i => csum (length C) (fun j => (conj (nth i (nth j w []) czero) * (dft N (fun m => cr (nth m (nth j (map (map (gR s)) C) []) 0 * nth m h 0)) i * cr (/ sqrt (INR Ns))))%cx)) (N / 2 + 1)) as [P HP].
  - intros i. rewrite <- csum_add. apply csum_ext. intros j _.
    rewrite (lin_dft N (fun s m => cr (nth m (nth j (map (map (gR s)) C) []) 0 * nth m h 0))); [ring|].
    intros k. assert (E : forall s, nth j (map (map (gR s)) C) [] = map (gR s) (nth j C [])) by (intros s; apply (map_nth (map (gR s)) C [])).
    rewrite !E, !nth_gR. cbn [gR]. rewrite <- cr_add. f_equal. ring.
  - exists P. intros s. rewrite <- HP. rewrite map_length. reflexivity.
Qed.
Lemma tri_compress_whole N Ns h f w C prev b : (forall s, all_zero (map (gR s) prev) = b) ->
  tri (fun s p => (map (gC s) (fst p), map (gR s) (snd p))) (fun s => compress_whole_chunk N Ns h f w (map (map (gR s)) C) (map (gR s) prev)).
Proof.
  intros Hz. unfold compress_whole_chunk. destruct (fused_gC N Ns h w C) as [P HP].
  apply (tri_bind (fun s p => (map (gC s) (fst p), map (gC s) (snd p)))).
  { apply (tri_ext _ (fun s => back_to_time_domain (map (gC s) P) N)); [intros s; now rewrite HP|]. apply tri_back. }
  intros [x t]. cbn [fst snd].
  destruct (lin_seq (fun s j => sqrt (INR Ns) * re (nth j (map (gC s) t) czero) * nth j f 0) N) as [Cu HC].
  { intros j. rewrite !nth_gC, !re_gC. cbn [gR fst snd]. ring. }
  apply (tri_if _ _ b); [exact Hz| |].
  - eapply tri_ok with (x := (x, Cu)). intros s. now rewrite HC.
  - apply (tri_bind (fun s => map (gR s))).
    + apply (tri_ext _ (fun s => fit (N - Ns) (map (gR s) (py_from (- Z.of_nat (N - Ns)) prev)))); [intros s; now rewrite py_from_map|]. apply tri_fit.
    + intros pv. apply tri_same. intros nv _.
      destruct (lin_seq (fun s j => let z := map (fun j => (if (j <? N - Ns)%nat then nth j (map (gR s) pv) 0 else 0) + nth j (map (gR s) Cu) 0) (seq 0 N) in
                                   if (j <? Ns)%nat then nth j z 0 / nth j nv 0 else nth j z 0) N) as [Z HZ].
      { intros j. cbv zeta.
        set (z := fun s => map (fun j => (if (j <? N - Ns)%nat then nth j (map (gR s) pv) 0 else 0) + nth j (map (gR s) Cu) 0) (seq 0 N)).
        assert (E : nth j (z SY) 0 = nth j (z SS) 0 + nth j (z SN) 0).
        { destruct (Nat.lt_ge_cases j N) as [Hj|Hj].
          - unfold z. rewrite !nth_map_seq by exact Hj. rewrite !nth_gR. destruct (_ <? _)%nat; cbn [gR]; ring.
          - rewrite !nth_overflow; [lra|unfold z; now rewrite map_length, seq_length..]. }
        fold (z SY) (z SS) (z SN). rewrite E. destruct (_ <? _)%nat; unfold Rdiv; ring. }
      eapply tri_ok with (x := (x, Z)). intros s. cbn [fst snd]. f_equal. rewrite <- HZ. cbv zeta. rewrite HC. reflexivity.
Qed.
