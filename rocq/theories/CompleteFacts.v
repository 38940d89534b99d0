(** Complete runs of synchronous networks do not fail: the parts of an event. *)
From Verif Require Import Base BaseFacts Sched SchedSpec Buffers BufSpec BufFacts BufNat Chunk ChunkSpec ChunkFacts ChunkProps Level Cx CxFacts Wola WolaFacts WolaProps Dist SroComp Online OnlineSpec OutSpec OutFacts OutFacts2 DistSpec DistFacts DistFacts2 LatestSpec LatestFacts2.
From Coq Require Import Reals Lra.
Local Open Scope R_scope.

Lemma get_lt {A} (l : list A) i d : (i < length l)%nat -> get l i = Ok (nth i l d).
Proof. intros H. unfold get. rewrite (nth_error_nth' l d H). reflexivity. Qed.

Lemma estimate_ok q Ns f w yhat e d :
  (0 < q)%nat -> length f = (2 * q)%nat -> length yhat = (q + 1)%nat -> (0 < e <= Z.of_nat (length d))%Z ->
  exists d', wola_estimate Ns f w yhat (Z.max (e - Z.of_nat (2 * q)) 0) e d = Ok d' /\ length d' = length d.
Proof.
  intros Hq Hf Hy He. unfold wola_estimate. rewrite Hf. cbv zeta.
  set (dhat := map _ (combine _ yhat)).
  assert (LH : length dhat = (q + 1)%nat) by (unfold dhat; rewrite map_length, combine_length, seq_length, Hy; lia).
  destruct (C20_real_result q dhat Hq LH) as (x' & out & E & _). rewrite E. cbn [bind snd].
  set (cur := map _ (seq 0 (2 * q))).
  set (b := Z.max (e - Z.of_nat (2 * q)) 0). assert (Hbe : (0 <= b <= e)%Z) by lia.
  assert (LO : Z.of_nat (length (py_slice b e d)) = (e - b)%Z).
  { unfold py_slice. rewrite !py_bound_in by lia. rewrite slice_length by lia. lia. }
  assert (LC : length cur = (2 * q)%nat) by (unfold cur; now rewrite map_length, seq_length).
  set (src := if (length (py_slice b e d) <? 2 * q)%nat then py_from (- Z.of_nat (length (py_slice b e d))) cur else cur).
  assert (LS : length src = length (py_slice b e d)).
  { unfold src. destruct (Nat.ltb_spec (length (py_slice b e d)) (2 * q)).
    - unfold py_from, py_bound. rewrite skipn_length, LC. destruct (Z.ltb_spec (- Z.of_nat (length (py_slice b e d))) 0); lia.
    - lia. }
  unfold fit. rewrite LS, Nat.eqb_refl. cbn [bind]. eexists. split; [reflexivity|].
  apply (splice_add b e src d Hbe ltac:(lia)). lia.
Qed.

Lemma extra_ok dim nLoc fl : (nLoc + length fl <= dim)%nat -> exists x, extra_shifts dim nLoc fl = Ok x /\ length x = dim.
Proof.
  intros H. unfold extra_shifts.
  assert (G : forall qs acc, Forall (fun q => (q < length fl)%nat) qs -> length acc = dim ->
    exists x, foldM (fun acc q => match nth q fl None with Some f => do _ <- get acc (nLoc + q)%nat; Ok (upd (nLoc + q)%nat f acc) | None => Ok acc end) qs acc = Ok x /\ length x = dim).
  { induction qs as [|q0 qs IH]; intros acc HF L; [cbn; eauto|]. inversion HF as [|? ? H1 H2]; subst. cbn [foldM]. destruct (nth q0 fl None) as [f|].
    - rewrite (get_lt acc (nLoc + q0) 0) by lia. cbn [bind]. apply IH; [assumption|]. now rewrite upd_length.
    - cbn [bind]. apply IH; assumption || reflexivity. }
  apply G; [|apply repeat_length]. apply Forall_forall. intros x Hx. apply in_seq in Hx. lia.
Qed.
Lemma move_ok nLoc Ns est psf : (nLoc + length est <= length psf)%nat -> exists x, move_shifts nLoc Ns est psf = Ok x /\ length x = length psf.
Proof.
  intros H. unfold move_shifts.
  assert (G : forall qs acc, Forall (fun q => (q < length est)%nat) qs -> length acc = length psf ->
    exists x, foldM (fun acc q => do v <- get acc (nLoc + q)%nat; Ok (upd (nLoc + q)%nat (v - nth q est 0 * Ns) acc)) qs acc = Ok x /\ length x = length psf).
  { induction qs as [|q0 qs IH]; intros acc HF L; [cbn; eauto|]. inversion HF as [|? ? H1 H2]; subst. cbn [foldM].
    rewrite (get_lt acc (nLoc + q0) 0) by lia. cbn [bind]. apply IH; [assumption|]. now rewrite upd_length. }
  apply G; [|reflexivity]. apply Forall_forall. intros x Hx. apply in_seq in Hx. lia.
Qed.

Lemma mapM_all {A B} (f : A -> res B) (P : B -> Prop) l : (forall x, In x l -> exists y, f x = Ok y /\ P y) -> exists ys, mapM f l = Ok ys /\ Forall P ys.
Proof.
  induction l as [|a l IH]; intros H; [exists []; split; [reflexivity|constructor]|].
  destruct (H a (or_introl eq_refl)) as (y & E & Py). destruct (IH (fun x Hx => H x (or_intror Hx))) as (ys & Es & Ps).
  exists (y :: ys). cbn. rewrite E. cbn. rewrite Es. cbn. split; [reflexivity|now constructor].
Qed.

(** whole chunks, hop of half a frame *)
Lemma norm_ok Ns h : (0 < Ns)%nat -> length h = (2 * Ns)%nat -> exists v, norm_val (2 * Ns) Ns h = Ok v.
Proof.
  intros HN Hh. unfold norm_val. replace (2 * Ns / Ns)%nat with 2%nat by (rewrite Nat.div_mul; lia). cbn [seq fold_left bind].
  unfold fit. rewrite !map_length, Hh.
  replace (Nat.min (0 * Ns + 2 * Ns) (2 * Ns + Ns) - 0 * Ns)%nat with (2 * Ns)%nat by lia. rewrite Nat.eqb_refl. cbn [bind].
  replace (Nat.min (1 * Ns + 2 * Ns) (2 * Ns + Ns) - 1 * Ns)%nat with (2 * Ns)%nat by lia. rewrite Nat.eqb_refl. cbn [bind]. eauto.
Qed.
Lemma compress_whole_ok Ns h f w yq prev : (0 < Ns)%nat -> length h = (2 * Ns)%nat -> (prev = [] \/ length prev = (2 * Ns)%nat) ->
  exists z, compress_whole_chunk (2 * Ns) Ns h f w yq prev = Ok z /\ length (snd z) = (2 * Ns)%nat.
Proof.
  intros HN Hh Hp. unfold compress_whole_chunk.
  assert (LF : length (fused_spectrum (2 * Ns) Ns h w yq) = (Ns + 1)%nat) by (unfold fused_spectrum; rewrite map_length, seq_length, OutFacts.div2_double; reflexivity).
  destruct (C20_real_result Ns _ HN LF) as (x' & out & E & _). rewrite E. cbn [bind].
  destruct (all_zero prev) eqn:AZ.
  - eexists. split; [reflexivity|]. cbn [snd]. now rewrite map_length, seq_length.
  - destruct Hp as [->|Hp]; [discriminate AZ|].
    assert (LP : length (py_from (- Z.of_nat (2 * Ns - Ns)) prev) = (2 * Ns - Ns)%nat).
    { unfold py_from, py_bound. rewrite skipn_length, Hp. destruct (Z.ltb_spec (- Z.of_nat (2 * Ns - Ns)) 0); lia. }
    unfold fit at 1. rewrite LP, Nat.eqb_refl. cbn [bind]. destruct (norm_ok Ns h HN Hh) as (v & Ev). rewrite Ev. cbn [bind].
    eexists. split; [reflexivity|]. cbn [snd]. now rewrite map_length, seq_length.
Qed.
