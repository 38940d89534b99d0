(** Lemmas for C66: pass-through filters and reconstruction. *)
From Verif Require Import Base BaseFacts Sched SchedSpec InstSpec Buffers BufFacts Chunk ChunkSpec ChunkFacts ChunkProps Cx CxFacts Wola WolaFacts Online OnlineSpec OutSpec OutFacts OutFacts2.
From Coq Require Import Reals Lra.
Local Open Scope R_scope.
Add Ring cxr_out3 : cx_ring.

(** A real frame is determined by the lower half of its spectrum. *)
Lemma half_spectrum_inj q (x x' : nat -> R) : (0 < q)%nat ->
  (forall b, (b <= q)%nat -> dft (2 * q) (fun m => cr (x m)) b = dft (2 * q) (fun m => cr (x' m)) b) ->
  forall m, (m < 2 * q)%nat -> x m = x' m.
Proof.
  intros Hq H m Hm.
  assert (A : forall b, (b < 2 * q)%nat -> dft (2 * q) (fun m => cr (x m)) b = dft (2 * q) (fun m => cr (x' m)) b).
  { intros b Hb. destruct (le_lt_dec b q) as [L|L]; [now apply H|].
    replace b with (2 * q - (2 * q - b))%nat by lia. rewrite !(dft_conj_sym (2 * q) _ (2 * q - b)) by (try (intros; reflexivity); lia).
    f_equal. apply H. lia. }
  assert (E : cr (x m) = cr (x' m)).
  { rewrite <- (idft_dft (2 * q) (fun m => cr (x m)) m Hm), <- (idft_dft (2 * q) (fun m => cr (x' m)) m Hm). apply idft_ext. exact A. }
  exact (f_equal re E).
Qed.

(** Flat filters weight the windowed frames. *)
Lemma flat_filtered q h w nch g ys x : (0 < q)%nat -> flat q w nch g -> filtered q h w nch ys x ->
  forall m, (m < 2 * q)%nat -> x m = nth m h 0 * sumR nch (fun ch => g ch * ys ch m).
Proof.
  intros Hq Hw F. apply (half_spectrum_inj q x (fun m => nth m h 0 * sumR nch (fun ch => g ch * ys ch m)) Hq).
  intros b Hb. rewrite (F b Hb).
  set (X := dft (2 * q) (fun m => cr (nth m h 0 * sumR nch (fun ch => g ch * ys ch m))) b).
  replace (csum nch _) with X.
  - unfold real_at. destruct (Nat.eqb_spec b 0) as [E0|E0]; [|destruct (Nat.eqb_spec b q) as [E1|E1]]; cbn [orb]; try reflexivity.
    + apply cx_eq; [reflexivity|]. cbn [im cr]. symmetry. apply dft_real_end; [intros; reflexivity|lia|lia].
    + apply cx_eq; [reflexivity|]. cbn [im cr]. symmetry. apply dft_real_end; [intros; reflexivity|lia|lia].
  - unfold X. rewrite (csum_ext nch _ (fun ch => dft (2 * q) (fun m => cr (g ch * (nth m h 0 * ys ch m))) b)).
    + unfold dft. rewrite csum_swap. apply csum_ext. intros m Hm. rewrite csum_scale_r. f_equal. rewrite csum_cr, <- sumR_scale. f_equal.
      apply sumR_ext. intros; ring.
    + intros ch Hch. rewrite (Hw ch b Hch Hb), conj_cr. unfold dft. rewrite <- csum_scale. apply csum_ext. intros m Hm. rewrite (cr_mul (g ch)). ring.
Qed.

Lemma placed_ext N e v v' n : (forall j, (j < N)%nat -> v j = v' j) -> placed N e v n = placed N e v' n.
Proof.
  intros H. unfold placed. cbv zeta. destruct (Z.leb_spec (e - Z.of_nat N) (Z.of_nat n)); destruct (Z.ltb_spec (Z.of_nat n) e); cbn [andb]; try reflexivity.
  apply H. lia.
Qed.
Lemma placed_scale N e a v n : placed N e (fun j => a * v j) n = a * placed N e v n.
Proof. unfold placed. cbv zeta. destruct (_ && _)%bool; ring. Qed.
(** A frame of the signal put back at its place. *)
Lemma placed_frame N e col v n : (e <= Z.of_nat (length col))%Z ->
  placed N e (fun j => v j * sample 0 col (e - Z.of_nat N + Z.of_nat j)) n = nth n col 0 * placed N e v n.
Proof.
  intros He. unfold placed. cbv zeta. destruct (Z.leb_spec (e - Z.of_nat N) (Z.of_nat n)); destruct (Z.ltb_spec (Z.of_nat n) e); cbn [andb]; try ring.
  replace (e - Z.of_nat N + Z.of_nat (Z.to_nat (Z.of_nat n - (e - Z.of_nat N))))%Z with (Z.of_nat n) by lia.
  unfold sample. destruct (Z.ltb_spec (Z.of_nat n) 0); [lia|]. rewrite Nat2Z.id. ring.
Qed.

Lemma sumR_plus n f g : sumR n (fun i => f i + g i) = sumR n f + sumR n g.
Proof. induction n as [|n IH]; cbn; [lra|]. rewrite IH. lra. Qed.
Lemma sumR_zero n f : (forall i, (i < n)%nat -> f i = 0) -> sumR n f = 0.
Proof. induction n as [|n IH]; intros H; cbn; [reflexivity|]. rewrite IH by (intros; apply H; lia). rewrite H by lia. lra. Qed.
Lemma sumR_app n m f : sumR (n + m) f = sumR n f + sumR m (fun i => f (n + i)%nat).
Proof. induction m as [|m IH]; [rewrite Nat.add_0_r; cbn; lra|]. rewrite Nat.add_succ_r. cbn [sumR]. rewrite IH. lra. Qed.
Lemma sumR_window n a r f : (a + r <= n)%nat -> (forall i, (i < n)%nat -> (i < a \/ a + r <= i)%nat -> f i = 0) ->
  sumR n f = sumR r (fun i => f (a + i)%nat).
Proof.
  intros H Z. replace n with (a + (r + (n - a - r)))%nat by lia. rewrite sumR_app, sumR_app.
  rewrite (sumR_zero a) by (intros; apply Z; lia). rewrite (sumR_zero (n - a - r)) by (intros; apply Z; lia). lra.
Qed.

Lemma updates_snoc k evs te : updates_of k (evs ++ [te]) = updates_of k evs ++ (if is_update k te then [te] else []).
Proof. rewrite updates_app. unfold updates_of at 2. cbn. now destruct (is_update k te). Qed.
(** The sum over the updates of a node. *)
Lemma sum_updates_list k evs v : sum_updates k evs (fun _ t => v t) = sumR (length (updates_of k evs)) (fun u => v (fst (nth u (updates_of k evs) (0%Z, (0%nat, Up))))).
Proof.
  induction evs as [|te evs IH] using rev_ind; [reflexivity|]. rewrite sum_updates_snoc, updates_snoc, app_length.
  destruct (is_update k te); cbn [length].
  - replace (length (updates_of k evs) + 1)%nat with (S (length (updates_of k evs))) by lia. cbn [sumR]. rewrite IH. f_equal.
    + apply sumR_ext. intros i Hi. now rewrite app_nth1.
    + now rewrite app_nth2, Nat.sub_diag by lia.
  - rewrite Nat.add_0_r, app_nil_r, IH. lra.
Qed.

(** Regular frames: the sum of the window products depends on the position in the hop. *)
Lemma regular_sum h f Ns r e0 cnt n : (0 < Ns)%nat ->
  (e0 - Z.of_nat Ns <= Z.of_nat n)%Z -> (Z.of_nat n < e0 + Z.of_nat (cnt * Ns) - Z.of_nat (r * Ns))%Z -> (e0 mod Z.of_nat Ns = 0)%Z ->
  sumR cnt (fun u => placed (r * Ns) (e0 + Z.of_nat (u * Ns)) (fun j => nth j h 0 * nth j f 0) n) = window_sum h f Ns r (n mod Ns).
Proof.
  intros HNs H1 H2 H0. set (s := Z.to_nat (Z.of_nat n - e0 + Z.of_nat Ns)). set (a := (s / Ns)%nat). set (j := (s mod Ns)%nat).
  assert (Es : s = (a * Ns + j)%nat) by (unfold a, j; rewrite (Nat.div_mod s Ns) at 1 by lia; lia).
  assert (Hj : (j < Ns)%nat) by (apply Nat.mod_upper_bound; lia).
  assert (Ej : (n mod Ns = j)%nat).
  { apply Nat2Z.inj. rewrite Nat2Z.inj_mod.
    assert (Z.of_nat n = Z.of_nat j + (e0 / Z.of_nat Ns + Z.of_nat a - 1) * Z.of_nat Ns)%Z.
    { pose proof (Z.div_mod e0 (Z.of_nat Ns) ltac:(lia)). nia. }
    rewrite H, Z.mod_add by lia. apply Z.mod_small. lia. }
  assert (Ha : (a + r <= cnt)%nat).
  { assert (s + r * Ns < (cnt + 1) * Ns)%nat by nia. nia. }
  rewrite (sumR_window cnt a r).
  - rewrite Ej. unfold window_sum. rewrite (sumR_rev r (fun i => nth (j + i * Ns) h 0 * nth (j + i * Ns) f 0)). apply sumR_ext. intros i Hi. unfold placed. cbv zeta.
    assert (I1 : (e0 + Z.of_nat ((a + i) * Ns) - Z.of_nat (r * Ns) <= Z.of_nat n)%Z) by nia.
    assert (I2 : (Z.of_nat n < e0 + Z.of_nat ((a + i) * Ns))%Z) by nia.
    rewrite (proj2 (Z.leb_le _ _) I1), (proj2 (Z.ltb_lt _ _) I2). cbn [andb].
    replace (Z.to_nat (Z.of_nat n - (e0 + Z.of_nat ((a + i) * Ns) - Z.of_nat (r * Ns)))) with (j + (r - 1 - i) * Ns)%nat; [reflexivity|].
    assert (Z.of_nat n = e0 - Z.of_nat Ns + Z.of_nat a * Z.of_nat Ns + Z.of_nat j)%Z by nia.
    assert (Z.of_nat (r - 1 - i) = Z.of_nat r - 1 - Z.of_nat i)%Z by lia. nia.
  - exact Ha.
  - intros u Hu Hout. unfold placed. cbv zeta.
    destruct (Z.leb_spec (e0 + Z.of_nat (u * Ns) - Z.of_nat (r * Ns)) (Z.of_nat n)); cbn [andb]; [|reflexivity].
    destruct (Z.ltb_spec (Z.of_nat n) (e0 + Z.of_nat (u * Ns))); [|reflexivity]. exfalso. destruct Hout as [L|L]; nia.
Qed.
