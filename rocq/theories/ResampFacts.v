(** Proofs about the online resampler. *)
From Verif Require Import Base BaseFacts Cx CxFacts Resamp.
From Coq Require Import Reals Lra Psatz.
Local Open Scope R_scope.

Lemma Int_part_IZR m : Int_part (IZR m) = m.
Proof.
  unfold Int_part. enough (up (IZR m) = m + 1)%Z by lia. symmetry. apply tech_up; rewrite plus_IZR; lra.
Qed.
Lemma np_round_IZR m : np_round (IZR m) = m.
Proof. unfold np_round. rewrite Int_part_IZR. destruct (Rlt_dec _ _); [reflexivity | lra]. Qed.
Lemma np_round_near x : Rabs (IZR (np_round x) - x) <= 1 / 2.
Proof.
  unfold np_round. assert (H := base_Int_part x). destruct (Rlt_dec _ _); [apply Rabs_le; lra|]. destruct (Rlt_dec _ _); [rewrite plus_IZR; apply Rabs_le; lra|].
  destruct (Z.even _); [apply Rabs_le; lra | rewrite plus_IZR; apply Rabs_le; lra].
Qed.

Lemma select_in_range B k : let '(s, e, u) := select_range B k in
  (0 <= s /\ e = s + 2 * Z.of_nat B /\ e <= 4 * Z.of_nat B)%Z /\ (u = false -> (- Z.of_nat B <= k < Z.of_nat B)%Z /\ s = (Z.of_nat B + k)%Z) /\
  ((- Z.of_nat B <= k < Z.of_nat B)%Z -> u = false).
Proof.
  unfold select_range. destruct (Z.ltb_spec (Z.of_nat B + k) 0); [|destruct (Z.leb_spec (4 * Z.of_nat B) (Z.of_nat B + 2 * Z.of_nat B + k))]; repeat split; try lia; intros; discriminate.
Qed.
Lemma py_slice_range {A} (l : list A) s e : (0 <= s <= e)%Z -> (e <= Z.of_nat (length l))%Z -> py_slice s e l = slice (Z.to_nat s) (Z.to_nat e) l.
Proof.
  intros H1 H2. unfold py_slice, py_bound. destruct (Z.ltb_spec s 0); [lia|]. destruct (Z.ltb_spec e 0); [lia|]. f_equal; lia.
Qed.
Lemma slice_length {A} a b (l : list A) : (a <= b <= length l)%nat -> length (slice a b l) = (b - a)%nat.
Proof. intros H. unfold slice. rewrite firstn_length, skipn_length. lia. Qed.
Lemma slice_nth {A} a b (l : list A) i d : (i < b - a)%nat -> nth i (slice a b l) d = nth (a + i) l d.
Proof.
  intros H. unfold slice. revert i b l H. induction a as [|a IH]; intros i b l H.
  - cbn [skipn]. rewrite Nat.sub_0_r in *. clear -H. revert b l H. induction i as [|i IH]; intros b l H; (destruct b; [lia|]); destruct l; cbn; try reflexivity. apply IH. lia.
  - destruct l as [|x l]; [cbn [skipn]; rewrite firstn_nil; transitivity d; [destruct i; reflexivity | destruct (S a + i)%nat; reflexivity]|]. cbn [skipn Nat.add nth]. replace (b - S a)%nat with ((b - 1) - a)%nat by lia. apply IH. lia.
Qed.

Definition wf (B : nat) (st : rsmp) : Prop := length (r_in st) = (4 * B)%nat /\ length (r_out st) = (3 * B)%nat.
Lemma wf_new B : wf B (rs_new B).
Proof. split; apply repeat_length. Qed.
Lemma shifted_length B sel r : length (shifted B sel r) = (2 * B)%nat.
Proof. unfold shifted. rewrite map_length, seq_length. reflexivity. Qed.

(** one step, unfolded *)
Lemma process_ok B st block sro sto : wf B st -> length block = B ->
  let inb := skipn B (r_in st) ++ block in
  let sh := r_shift st + sro * / 1000000 * INR B in
  let ish := np_round (sh + sto) in
  let '(s, e, undo) := select_range B ish in
  let tail := map (fun p => fst p + snd p) (combine (skipn B (r_out st)) (shifted B (slice (Z.to_nat s) (Z.to_nat e) inb) (IZR ish - (sh + sto)))) in
  exists st', rs_process B st block sro sto = Ok (firstn B tail, (s, e), st') /\ wf B st' /\ length tail = (2 * B)%nat /\
    length (slice (Z.to_nat s) (Z.to_nat e) inb) = (2 * B)%nat /\
    st' = mkRs (if undo then r_shift st else sh) inb (tail ++ repeat 0 B).
Proof.
  intros [W1 W2] Hb inb sh ish. assert (Hs := select_in_range B ish). destruct (select_range B ish) as [[s e] u] eqn:E.
  destruct Hs as ((S1 & S2 & S3) & _).
  assert (Hl : length inb = (4 * B)%nat) by (unfold inb; rewrite app_length, skipn_length; lia).
  assert (Hsl : length (slice (Z.to_nat s) (Z.to_nat e) inb) = (2 * B)%nat) by (rewrite slice_length by lia; lia).
  intros tail. assert (Ht : length tail = (2 * B)%nat) by (unfold tail; rewrite map_length, combine_length, skipn_length, shifted_length; lia).
  eexists. split.
  - unfold rs_process. rewrite Hb, Nat.eqb_refl. cbn [negb]. rewrite (firstn_all2 (n := 4 * B)) by lia. fold inb sh ish. rewrite E.
    rewrite py_slice_range by lia. rewrite Hsl, Nat.eqb_refl. cbn [negb]. fold tail. reflexivity.
  - split; [split; cbn [r_in r_out]; [exact Hl | rewrite app_length, repeat_length; lia]|]. split; [exact Ht|]. split; [exact Hsl|].
    f_equal. destruct u; [unfold sh; ring | reflexivity].
Qed.

Definition in_ok (B : nat) (inp : list (list R * R * R)) : Prop := forall b r o, In (b, r, o) inp -> length b = B.
Lemma run_total B inp : in_ok B inp -> forall st, wf B st ->
  exists outs st', rs_run B st inp = Ok (outs, st') /\ wf B st' /\ length outs = length inp /\
    (forall o s e, In (o, (s, e)) outs -> length o = B /\ (0 <= s)%Z /\ (e = s + 2 * Z.of_nat B)%Z /\ (e <= 4 * Z.of_nat B)%Z).
Proof.
  induction inp as [|[[b r] o] inp IH]; intros Hin st W; cbn [rs_run].
  - exists [], st. split; [reflexivity|]. split; [exact W|]. split; [reflexivity|]. intros ? ? ? [].
  - assert (P := process_ok B st b r o W (Hin b r o (or_introl eq_refl))). cbv zeta in P.
    set (ish := np_round (r_shift st + r * / 1000000 * INR B + o)) in *. assert (Hs := select_in_range B ish).
    destruct (select_range B ish) as [[s e] u] eqn:E. destruct P as (st1 & E1 & W1 & L1 & _). rewrite E1. cbn [bind snd fst].
    destruct (IH ltac:(intros ? ? ? H; apply (Hin _ _ _ (or_intror H))) st1 W1) as (outs & st' & E2 & W2 & L2 & G). rewrite E2. cbn [bind fst snd].
    eexists. exists st'. split; [reflexivity|]. split; [exact W2|]. split; [cbn [length]; lia|].
    intros o' s' e' [H|H]; [|exact (G o' s' e' H)]. injection H as <- <- <-. rewrite firstn_length, L1. split; [lia|]. tauto.
Qed.

(** accumulated shift *)
Lemma run_shift B inp : (0 < B)%nat -> in_ok B inp -> (forall b r o, In (b, r, o) inp -> o = 0) -> forall st outs st', wf B st ->
  - INR B - 1 / 2 <= r_shift st <= INR B - 1 / 2 ->
  rs_run B st inp = Ok (outs, st') -> - INR B - 1 / 2 <= r_shift st' <= INR B - 1 / 2.
Proof.
  intros HB. induction inp as [|[[b r] o] inp IH]; intros Hin H0 st outs st' W Hs Hr; cbn [rs_run] in Hr.
  - injection Hr as <- <-. exact Hs.
  - assert (P := process_ok B st b r o W (Hin b r o (or_introl eq_refl))). cbv zeta in P. rewrite (H0 b r o (or_introl eq_refl)) in P.
    rewrite (H0 b r o (or_introl eq_refl)) in Hr.
    set (sh := r_shift st + r * / 1000000 * INR B) in *. set (ish := np_round (sh + 0)) in *. assert (Hsel := select_in_range B ish).
    destruct (select_range B ish) as [[s e] u] eqn:E. destruct P as (st1 & E1 & W1 & _ & _ & Est). rewrite E1 in Hr. cbn [bind snd fst] in Hr.
    destruct (rs_run B st1 inp) as [[outs1 st2]|] eqn:E2; [|discriminate]. cbn [bind fst snd] in Hr. injection Hr as <- <-.
    refine (IH _ _ st1 outs1 st2 W1 _ E2); [intros ? ? ? H; apply (Hin _ _ _ (or_intror H)) | intros ? ? ? H; apply (H0 _ _ _ (or_intror H))|].
    rewrite Est. cbn [r_shift]. destruct u; [exact Hs|]. destruct Hsel as (_ & Hsel & _). destruct (Hsel eq_refl) as [[Hk1 Hk2] _].
    assert (Hn := np_round_near (sh + 0)). fold ish in Hn. apply Rabs_le_inv in Hn || (unfold Rabs in Hn; destruct (Rcase_abs _) in Hn).
    all: apply IZR_le in Hk1; assert (Hk3 : (ish <= Z.of_nat B - 1)%Z) by lia; apply IZR_le in Hk3; rewrite opp_IZR, <- INR_IZR_INZ in Hk1; rewrite minus_IZR, <- INR_IZR_INZ in Hk3; lra.
Qed.

(** ** No offset: a pure delay *)
Lemma hann_overlap B n : (0 < B)%nat -> hann_per B n + hann_per B (B + n) = 1.
Proof.
  intros HB. assert (H : 0 < INR B) by (apply lt_0_INR; exact HB). unfold hann_per. rewrite plus_INR, mult_INR. change (INR 2) with 2.
  replace (2 * PI * (INR B + INR n) / (2 * INR B)) with (2 * PI * INR n / (2 * INR B) + PI) by (field; lra). rewrite neg_cos. lra.
Qed.
Lemma shifted_zero B sel n : (n < 2 * B)%nat -> nth n (shifted B sel 0) 0 = hann_per B n * nth n sel 0.
Proof.
  intros Hn. unfold shifted. set (N := (4 * B)%nat). cbv zeta.
  set (f := fun n0 => re _). rewrite (nth_indep _ 0 (f 0%nat)) by (rewrite map_length, seq_length; exact Hn). rewrite (map_nth f), seq_nth by exact Hn. cbn [Nat.add]. unfold f.
  rewrite (idft_ext N _ (dft N (fun m => cr (if Nat.ltb m (2 * B) then hann_per B m * nth m sel 0 else 0)))).
  - rewrite idft_dft by (unfold N; lia). destruct (Nat.ltb_spec n (2 * B)); [reflexivity | lia].
  - intros k _. replace (- (2 * PI * IZR (kfreq N k) / INR N * 0)) with 0 by ring. rewrite cis_0. destruct (dft N _ k) as [a b]. apply cx_eq; cbn; ring.
Qed.

Definition stream (x : list R) (j : Z) : R := if Z.ltb j 0 then 0 else nth (Z.to_nat j) x 0.

Section Aligned.
Variables (B : nat) (m : Z) (x : list R).
Hypothesis (HB : (0 < B)%nat) (Hm : (- Z.of_nat B <= m < Z.of_nat B)%Z).
Let b := Z.of_nat B.
Definition inv (t : nat) (st : rsmp) : Prop :=
  wf B st /\ r_shift st = 0 /\
  (forall i, (i < 4 * B)%nat -> nth i (r_in st) 0 = stream x ((Z.of_nat t - 4) * b + Z.of_nat i)) /\
  (forall n, (n < B)%nat -> nth (B + n) (r_out st) 0 = hann_per B (B + n) * stream x ((Z.of_nat t - 2) * b + m + Z.of_nat n) /\ nth (2 * B + n) (r_out st) 0 = 0).

Lemma inv_new : inv 0 (rs_new B).
Proof.
  unfold b. split; [apply wf_new|]. split; [reflexivity|]. cbn [rs_new r_in r_out].
  assert (R0 : forall k i, nth i (repeat 0 k) 0 = 0) by (intros k i; destruct (Nat.lt_ge_cases i k); [apply nth_repeat | apply nth_overflow; rewrite repeat_length; assumption]).
  split; [intros i Hi; rewrite R0; unfold stream, b; destruct (Z.ltb_spec ((Z.of_nat 0 - 4) * Z.of_nat B + Z.of_nat i) 0); [reflexivity | lia]|].
  intros n Hn. rewrite !R0. split; [|reflexivity]. unfold stream, b. destruct (Z.ltb_spec ((Z.of_nat 0 - 2) * Z.of_nat B + m + Z.of_nat n) 0); [ring | lia].
Qed.
Lemma nth_vadd u v i : length u = length v -> nth i (map (fun p => fst p + snd p) (combine u v)) 0 = nth i u 0 + nth i v 0.
Proof.
  intros Hl. destruct (Nat.lt_ge_cases i (length u)) as [Hi|Hi].
  - rewrite (nth_indep _ 0 ((fun p => fst p + snd p) (0, 0))) by (rewrite map_length, combine_length; lia). rewrite (map_nth (fun p => fst p + snd p)), combine_nth by exact Hl. reflexivity.
  - rewrite !nth_overflow by (rewrite ?map_length, ?combine_length; lia). ring.
Qed.
Lemma nth_skipn_R k (l : list R) i : nth i (skipn k l) 0 = nth (k + i) l 0.
Proof. revert l. induction k as [|k IH]; intros l; [reflexivity|]. destruct l; [destruct i; reflexivity | cbn; apply IH]. Qed.
Lemma nth_firstn_R k (l : list R) i : (i < k)%nat -> nth i (firstn k l) 0 = nth i l 0.
Proof. revert l i. induction k as [|k IH]; intros l i H; [lia|]. destruct l; [reflexivity|]. destruct i; [reflexivity|]. cbn. apply IH. lia. Qed.

Lemma inv_step t st block : inv t st -> length block = B -> (forall i, (i < B)%nat -> nth i block 0 = stream x (Z.of_nat t * b + Z.of_nat i)) ->
  exists o r st', rs_process B st block 0 (IZR m) = Ok (o, r, st') /\ inv (S t) st' /\ length o = B /\
    forall n, (n < B)%nat -> nth n o 0 = stream x ((Z.of_nat t - 2) * b + m + Z.of_nat n).
Proof.
  intros (W & I1 & I2 & I3) Hl Hbl. assert (P := process_ok B st block 0 (IZR m) W Hl). cbv zeta in P.
  rewrite I1 in P. replace (0 + 0 * / 1000000 * INR B) with 0 in P by ring. rewrite Rplus_0_l, np_round_IZR in P.
  assert (Hsel := select_in_range B m). destruct (select_range B m) as [[s e] u] eqn:E. destruct Hsel as ((S1 & S2 & S3) & Su & Hu).
  assert (u = false) by (apply Hu; exact Hm). subst u. destruct (Su eq_refl) as [_ Es]. destruct P as (st' & E1 & W' & L1 & L2 & Est).
  replace (IZR m - IZR m) with 0 in * by ring.
  set (inb := skipn B (r_in st) ++ block) in *. set (sel := slice (Z.to_nat s) (Z.to_nat e) inb) in *.
  destruct W as [Wi Wo].
  assert (Hin : forall i, (i < 4 * B)%nat -> nth i inb 0 = stream x ((Z.of_nat t - 3) * b + Z.of_nat i)).
  { intros i Hi. unfold inb. destruct (Nat.lt_ge_cases i (3 * B)) as [Hc|Hc].
    - rewrite app_nth1 by (rewrite skipn_length; lia). rewrite nth_skipn_R, I2 by lia. f_equal. unfold b. lia.
    - rewrite app_nth2 by (rewrite skipn_length; lia). rewrite skipn_length, Wi, Hbl by lia. f_equal. unfold b. lia. }
  assert (Hsn : forall i, (i < 2 * B)%nat -> nth i sel 0 = stream x ((Z.of_nat t - 2) * b + m + Z.of_nat i)).
  { intros i Hi. unfold sel. rewrite slice_nth by lia. rewrite Hin by lia. f_equal. unfold b in *. lia. }
  set (tail := map (fun p => fst p + snd p) (combine (skipn B (r_out st)) (shifted B sel 0))) in *.
  assert (Ht : forall i, (i < 2 * B)%nat -> nth i tail 0 = nth (B + i) (r_out st) 0 + hann_per B i * stream x ((Z.of_nat t - 2) * b + m + Z.of_nat i)).
  { intros i Hi. unfold tail. rewrite nth_vadd by (rewrite skipn_length, shifted_length; lia). rewrite nth_skipn_R, shifted_zero, Hsn by lia. reflexivity. }
  exists (firstn B tail), (s, e), st'. split; [exact E1|]. split; [|split; [rewrite firstn_length; lia|]].
  - split; [exact W'|]. rewrite Est. cbn [r_shift r_in r_out]. split; [reflexivity|]. split.
    + intros i Hi. rewrite Hin by exact Hi. f_equal. lia.
    + intros n Hn. rewrite app_nth1 by lia. rewrite app_nth2 by lia. rewrite nth_repeat. split; [|reflexivity].
      rewrite Ht by lia. replace (B + (B + n))%nat with (2 * B + n)%nat by lia. destruct (I3 n Hn) as [_ ->]. rewrite Rplus_0_l. f_equal. f_equal. unfold b. lia.
  - intros n Hn. rewrite nth_firstn_R by exact Hn. rewrite Ht by lia. destruct (I3 n Hn) as [-> _]. rewrite <- Rmult_plus_distr_r.
    rewrite (Rplus_comm (hann_per B (B + n))), hann_overlap by exact HB. ring.
Qed.
Lemma run_aligned blocks : forall t st, inv t st -> (forall k, (k < length blocks)%nat -> length (nth k blocks []) = B /\
     forall i, (i < B)%nat -> nth i (nth k blocks []) 0 = stream x (Z.of_nat (t + k) * b + Z.of_nat i)) ->
  exists outs st', rs_run B st (map (fun bl => (bl, 0, IZR m)) blocks) = Ok (outs, st') /\ length outs = length blocks /\
    forall k n, (k < length blocks)%nat -> (n < B)%nat -> length (fst (nth k outs ([], (0, 0)%Z))) = B /\
      nth n (fst (nth k outs ([], (0, 0)%Z))) 0 = stream x ((Z.of_nat (t + k) - 2) * b + m + Z.of_nat n).
Proof.
  induction blocks as [|bl blocks IH]; intros t st Hi Hb; cbn [map rs_run].
  - exists [], st. split; [reflexivity|]. split; [reflexivity|]. intros k n Hk. cbn in Hk. lia.
  - destruct (Hb 0%nat ltac:(cbn; lia)) as [H1 H2]. cbn [nth] in H1, H2. rewrite Nat.add_0_r in H2.
    destruct (inv_step t st bl Hi H1 H2) as (o & r & st1 & E1 & I1 & Lo & Ho). rewrite E1. cbn [bind snd fst].
    destruct (IH (S t) st1 I1) as (outs & st' & E2 & L2 & G).
    { intros k Hk. specialize (Hb (S k) ltac:(cbn; lia)). cbn [nth] in Hb. replace (S t + k)%nat with (t + S k)%nat by lia. exact Hb. }
    rewrite E2. cbn [bind fst snd]. exists ((o, r) :: outs), st'. split; [reflexivity|]. split; [cbn; lia|].
    intros [|k] n Hk Hn; cbn [nth fst]; [rewrite Nat.add_0_r; split; [exact Lo | apply Ho; exact Hn]|]. replace (t + S k)%nat with (S t + k)%nat by lia. apply G; [cbn in Hk; lia | exact Hn].
Qed.
End Aligned.

Lemma concat_nth B (blocks : list (list R)) : (0 < B)%nat -> (forall bl, In bl blocks -> length bl = B) -> forall k i, (k < length blocks)%nat -> (i < B)%nat ->
  nth (k * B + i) (concat blocks) 0 = nth i (nth k blocks []) 0.
Proof.
  intros HB. induction blocks as [|bl blocks IH]; intros H k i Hk Hi; [cbn in Hk; lia|]. cbn [concat]. assert (Hl := H bl (or_introl eq_refl)). destruct k as [|k]; cbn [nth].
  - rewrite app_nth1 by lia. reflexivity.
  - rewrite app_nth2 by (cbn; lia). rewrite Hl. replace (S k * B + i - B)%nat with (k * B + i)%nat by (cbn; lia). apply IH; [intros; apply H; right; assumption | cbn in Hk; lia | exact Hi].
Qed.
Lemma run_delay B m blocks : (0 < B)%nat -> (- Z.of_nat B <= m < Z.of_nat B)%Z -> (forall bl, In bl blocks -> length bl = B) ->
  exists outs st', rs_run B (rs_new B) (map (fun bl => (bl, 0, IZR m)) blocks) = Ok (outs, st') /\ length outs = length blocks /\
    forall k n, (k < length blocks)%nat -> (n < B)%nat -> length (fst (nth k outs ([], (0, 0)%Z))) = B /\
      nth n (fst (nth k outs ([], (0, 0)%Z))) 0 = stream (concat blocks) (Z.of_nat (k * B + n) - 2 * Z.of_nat B + m).
Proof.
  intros HB Hm Hb. destruct (run_aligned B m (concat blocks) HB Hm blocks 0 (rs_new B)) as (outs & st' & E & L & G).
  - apply inv_new; assumption.
  - intros k Hk. split; [apply Hb; apply nth_In; exact Hk|]. intros i Hi. cbn [Nat.add]. unfold stream. destruct (Z.ltb_spec (Z.of_nat k * Z.of_nat B + Z.of_nat i) 0); [lia|].
    replace (Z.to_nat (Z.of_nat k * Z.of_nat B + Z.of_nat i)) with (k * B + i)%nat by lia. symmetry. apply concat_nth; assumption.
  - exists outs, st'. split; [exact E|]. split; [exact L|]. intros k n Hk Hn. destruct (G k n Hk Hn) as [G1 G2]. split; [exact G1|]. rewrite G2. f_equal. cbn [Nat.add]. lia.
Qed.
