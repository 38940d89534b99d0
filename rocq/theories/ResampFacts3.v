(** Proofs about the online resampler: whole runs with fractional shifts. *)
From Verif Require Import Base BaseFacts ChunkSpec Cx CxFacts Resamp ResampSpec ResampFacts ResampFacts2.
From Coq Require Import Reals Lra Psatz.
Local Open Scope R_scope.

Lemma stream_sample x j : stream x j = sample_at x j. Proof. reflexivity. Qed.

Section Frac.
Variables (B : nat) (x : list R) (sro sto : nat -> R) (r : nat -> Z).
Definition acc (k : nat) : R := sumR k (fun i => sro i * / 1000000 * INR B).
Definition at_block (k : nat) : R := acc (S k) + sto k.
Definition seg (k n : nat) : R := read_segment B x ((Z.of_nat k - 2) * Z.of_nat B + r k) (INR n + (at_block k - IZR (r k))).
Definition old (k n : nat) : R := match k with O => 0 | S j => seg j (B + n) end.
Hypothesis (HB : (0 < B)%nat).

Definition finv (t : nat) (st : rsmp) : Prop :=
  wf B st /\ r_shift st = acc t /\
  (forall i, (i < 4 * B)%nat -> nth i (r_in st) 0 = stream x ((Z.of_nat t - 4) * Z.of_nat B + Z.of_nat i)) /\
  (forall n, (n < B)%nat -> nth (B + n) (r_out st) 0 = old t n /\ nth (2 * B + n) (r_out st) 0 = 0).

Lemma finv_new : finv 0 (rs_new B).
Proof.
  split; [apply wf_new|]. split; [reflexivity|]. cbn [rs_new r_in r_out].
  assert (R0 : forall k i, nth i (repeat 0 k) 0 = 0) by (intros k i; destruct (Nat.lt_ge_cases i k); [apply nth_repeat | apply nth_overflow; rewrite repeat_length; assumption]).
  split; [intros i Hi; rewrite R0; unfold stream; destruct (Z.ltb_spec ((Z.of_nat 0 - 4) * Z.of_nat B + Z.of_nat i) 0); [reflexivity | lia]|].
  intros n Hn. rewrite !R0. split; reflexivity.
Qed.

Lemma finv_step t st block : finv t st -> nearest (at_block t) (r t) -> (- Z.of_nat B <= r t < Z.of_nat B)%Z ->
  length block = B -> (forall i, (i < B)%nat -> nth i block 0 = stream x (Z.of_nat t * Z.of_nat B + Z.of_nat i)) ->
  exists o q st', rs_process B st block (sro t) (sto t) = Ok (o, q, st') /\ finv (S t) st' /\ length o = B /\
    forall n, (n < B)%nat -> nth n o 0 = old t n + seg t n.
Proof.
  intros (W & I1 & I2 & I3) Hr Hm Hl Hbl. assert (P := process_ok B st block (sro t) (sto t) W Hl). cbv zeta in P.
  rewrite I1 in P. change (acc t + sro t * / 1000000 * INR B) with (acc (S t)) in P. fold (at_block t) in P. rewrite (nearest_round _ _ Hr) in P.
  assert (Hsel := select_in_range B (r t)). destruct (select_range B (r t)) as [[s e] u] eqn:E. destruct Hsel as ((S1 & S2 & S3) & Su & Hu).
  assert (u = false) by (apply Hu; exact Hm). subst u. destruct (Su eq_refl) as [_ Es]. destruct P as (st' & E1 & W' & L1 & L2 & Est).
  set (inb := skipn B (r_in st) ++ block) in *. set (sel := slice (Z.to_nat s) (Z.to_nat e) inb) in *.
  destruct W as [Wi Wo].
  assert (Hin : forall i, (i < 4 * B)%nat -> nth i inb 0 = stream x ((Z.of_nat t - 3) * Z.of_nat B + Z.of_nat i)).
  { intros i Hi. unfold inb. destruct (Nat.lt_ge_cases i (3 * B)) as [Hc|Hc].
    - rewrite app_nth1 by (rewrite skipn_length; lia). rewrite nth_skipn_R, I2 by lia. f_equal. lia.
    - rewrite app_nth2 by (rewrite skipn_length; lia). rewrite skipn_length, Wi, Hbl by lia. f_equal. lia. }
  assert (Hsn : forall i, (i < 2 * B)%nat -> nth i sel 0 = stream x ((Z.of_nat t - 2) * Z.of_nat B + r t + Z.of_nat i)).
  { intros i Hi. unfold sel. rewrite slice_nth by lia. rewrite Hin by lia. f_equal. lia. }
  assert (Hsh : forall i, (i < 2 * B)%nat -> nth i (shifted B sel (IZR (r t) - at_block t)) 0 = seg t i).
  { intros i Hi. rewrite shifted_kernel by assumption. unfold seg, read_segment. apply sumR_ext2. intros j Hj. rewrite Hsn, fade_hann, stream_sample by assumption. f_equal. f_equal. ring. }
  set (tail := map (fun p => fst p + snd p) (combine (skipn B (r_out st)) (shifted B sel (IZR (r t) - at_block t)))) in *.
  assert (Ht : forall i, (i < 2 * B)%nat -> nth i tail 0 = nth (B + i) (r_out st) 0 + seg t i).
  { intros i Hi. unfold tail. rewrite (nth_vadd B HB) by (rewrite skipn_length, shifted_length; lia). rewrite nth_skipn_R, Hsh by lia. reflexivity. }
  exists (firstn B tail), (s, e), st'. split; [exact E1|]. split; [|split; [rewrite firstn_length; lia|]].
  - split; [exact W'|]. rewrite Est. cbn [r_shift r_in r_out]. split; [reflexivity|]. split.
    + intros i Hi. rewrite Hin by exact Hi. f_equal. lia.
    + intros n Hn. rewrite app_nth1 by lia. rewrite app_nth2 by lia. rewrite nth_repeat. split; [|reflexivity].
      rewrite Ht by lia. replace (B + (B + n))%nat with (2 * B + n)%nat by lia. destruct (I3 n Hn) as [_ ->]. rewrite Rplus_0_l. reflexivity.
  - intros n Hn. rewrite (nth_firstn_R B HB) by exact Hn. rewrite Ht by lia. destruct (I3 n Hn) as [-> _]. reflexivity.
Qed.

Lemma frac_run (l : list (list R)) : forall t st, finv t st ->
  (forall k, (k < length l)%nat -> nearest (at_block (t + k)) (r (t + k)%nat) /\ (- Z.of_nat B <= r (t + k)%nat < Z.of_nat B)%Z /\ length (nth k l []) = B /\
     forall i, (i < B)%nat -> nth i (nth k l []) 0 = stream x (Z.of_nat (t + k) * Z.of_nat B + Z.of_nat i)) ->
  exists outs st', rs_run B st (combine (combine l (map sro (seq t (length l)))) (map sto (seq t (length l)))) = Ok (outs, st') /\ length outs = length l /\
    forall k n, (k < length l)%nat -> (n < B)%nat -> length (fst (nth k outs ([], (0, 0)%Z))) = B /\
      nth n (fst (nth k outs ([], (0, 0)%Z))) 0 = old (t + k) n + seg (t + k) n.
Proof.
  induction l as [|bl l IH]; intros t st Hi Hb; cbn [length seq map combine rs_run].
  - exists [], st. split; [reflexivity|]. split; [reflexivity|]. intros k n Hk. lia.
  - destruct (Hb 0%nat ltac:(cbn; lia)) as (H0 & H1 & H2 & H3). cbn [nth] in H2, H3. rewrite Nat.add_0_r in H0, H1, H3.
    destruct (finv_step t st bl Hi H0 H1 H2 H3) as (o & q & st1 & E1 & I1 & Lo & Ho). rewrite E1. cbn [bind snd fst].
    destruct (IH (S t) st1 I1) as (outs & st' & E2 & L2 & G).
    { intros k Hk. specialize (Hb (S k) ltac:(cbn; lia)). cbn [nth] in Hb. replace (S t + k)%nat with (t + S k)%nat by lia. exact Hb. }
    rewrite E2. cbn [bind fst snd]. exists ((o, q) :: outs), st'. split; [reflexivity|]. split; [cbn; lia|].
    intros [|k] n Hk Hn; cbn [nth fst]; [rewrite Nat.add_0_r; split; [exact Lo | apply Ho; exact Hn]|]. replace (t + S k)%nat with (S t + k)%nat by lia. apply G; [lia | exact Hn].
Qed.
End Frac.

Lemma run_frac B (inp : list (list R * R * R)) (r : nat -> Z) : (0 < B)%nat -> (forall b u v, In (b, u, v) inp -> length b = B) ->
  let x := concat (map (fun p => fst (fst p)) inp) in
  let sro := fun k => nth k (map (fun p => snd (fst p)) inp) 0 in
  let sto := fun k => nth k (map snd inp) 0 in
  let a := fun k => sumR (S k) (fun i => sro i * / 1000000 * INR B) + sto k in
  (forall k, (k < length inp)%nat -> nearest (a k) (r k) /\ (- Z.of_nat B <= r k < Z.of_nat B)%Z) ->
  exists outs st', rs_run B (rs_new B) inp = Ok (outs, st') /\ length outs = length inp /\
    forall k n, (k < length inp)%nat -> (n < B)%nat -> length (fst (nth k outs ([], (0, 0)%Z))) = B /\
      nth n (fst (nth k outs ([], (0, 0)%Z))) 0 =
        (match k with O => 0 | S j => read_segment B x ((Z.of_nat j - 2) * Z.of_nat B + r j) (INR (B + n) + (a j - IZR (r j))) end)
        + read_segment B x ((Z.of_nat k - 2) * Z.of_nat B + r k) (INR n + (a k - IZR (r k))).
Proof.
  intros HB Hl x sro sto a Hr. set (bl := map (fun p => fst (fst p)) inp) in *. assert (Lb : length bl = length inp) by apply map_length.
  assert (Ec : inp = combine (combine bl (map sro (seq 0 (length bl)))) (map sto (seq 0 (length bl)))).
  { assert (M : forall (l : list R), map (fun k => nth k l 0) (seq 0 (length l)) = l).
    { intros l. apply (nth_ext _ _ 0 0); [rewrite map_length, seq_length; reflexivity|]. intros i Hi. rewrite map_length, seq_length in Hi. rewrite (nth_indep _ 0 (nth 0 l 0)) by (rewrite map_length, seq_length; exact Hi). rewrite (map_nth (fun k => nth k l 0)), seq_nth by exact Hi. reflexivity. }
    unfold sro, sto. rewrite Lb. rewrite <- (map_length (fun p : list R * R * R => snd (fst p)) inp) at 1. rewrite M. rewrite <- (map_length (snd : list R * R * R -> R) inp) at 1. rewrite M.
    unfold bl. clear. induction inp as [|[[b u] v] l IH]; [reflexivity|]. cbn [map combine fst snd]. rewrite <- IH. reflexivity. }
  assert (Hb : forall b, In b bl -> length b = B). { intros b Hb. apply in_map_iff in Hb. destruct Hb as ([[b' u] v] & <- & Hi). exact (Hl _ _ _ Hi). }
  destruct (frac_run B x sro sto r HB bl 0 (rs_new B)) as (outs & st' & E & L & G).
  - apply finv_new; exact HB.
  - intros k Hk. rewrite Lb in Hk. destruct (Hr k Hk) as [R1 R2]. split; [exact R1|]. split; [exact R2|]. split; [apply Hb; apply nth_In; lia|]. intros i Hi. cbn [Nat.add]. unfold stream. destruct (Z.ltb_spec (Z.of_nat k * Z.of_nat B + Z.of_nat i) 0); [lia|].
    replace (Z.to_nat (Z.of_nat k * Z.of_nat B + Z.of_nat i)) with (k * B + i)%nat by lia. symmetry. apply concat_nth; try assumption; lia.
  - exists outs, st'. rewrite Ec at 1. split; [exact E|]. split; [lia|]. intros k n Hk Hn. destruct (G k n ltac:(lia) Hn) as [G1 G2]. split; [exact G1|]. rewrite G2. cbn [Nat.add]. destruct k; reflexivity.
Qed.

Lemma read_integer B x start n : (0 < B)%nat -> (n < 2 * B)%nat -> read_segment B x start (INR n) = fade B n * sample_at x (start + Z.of_nat n).
Proof.
  intros HB Hn. set (sel := map (fun j => sample_at x (start + Z.of_nat j)) (seq 0 (2 * B))).
  assert (Hs : forall j, (j < 2 * B)%nat -> nth j sel 0 = sample_at x (start + Z.of_nat j)).
  { intros j Hj. unfold sel. set (f := fun j => sample_at x _). rewrite (nth_indep _ 0 (f 0%nat)) by (rewrite map_length, seq_length; exact Hj). rewrite (map_nth f), seq_nth by exact Hj. reflexivity. }
  pose proof (shifted_kernel B sel 0 n HB Hn) as K. rewrite shifted_zero, Hs, <- fade_hann in K by assumption. rewrite K. unfold read_segment. apply sumR_ext2. intros j Hj. rewrite Hs, fade_hann by assumption. f_equal. f_equal. ring.
Qed.
Lemma fade_out B n : (0 < B)%nat -> fade B (B + n) = 1 - fade B n.
Proof. intros HB. rewrite !fade_hann by exact HB. pose proof (hann_overlap B n HB). lra. Qed.
Lemma nearest_IZR r : nearest (IZR r) r.
Proof. unfold nearest. rewrite Rminus_diag_eq by reflexivity. rewrite Rabs_R0. split; [lra | intros H; exfalso; lra]. Qed.
