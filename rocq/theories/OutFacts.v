(** Lemmas for C66: what one update adds to the output signals. *)
From Verif Require Import Base BaseFacts Sched Buffers Chunk ChunkSpec ChunkFacts Level Cx CxFacts Wola WolaFacts WolaProps Dist SroComp Online OnlineSpec OutSpec.
From Coq Require Import Reals Lra.
Local Open Scope R_scope.
Add Ring cxr_out : cx_ring.

Lemma nth_slice {A} a b (l : list A) d i : (i < b - a)%nat -> nth i (slice a b l) d = nth (a + i) l d.
Proof.
  intros H. unfold slice. rewrite <- (firstn_skipn a l) at 2.
  destruct (le_lt_dec (length l) a) as [Ha|Ha].
  - rewrite (skipn_all2 l Ha), firstn_nil, app_nil_r, firstn_all2 by lia. rewrite !nth_overflow; [reflexivity|lia|cbn; lia].
  - rewrite app_nth2; rewrite firstn_length_le by lia; [|lia]. replace (a + i - a)%nat with i by lia.
    generalize (skipn a l). intros r. revert i H. generalize (b - a)%nat. intros n. revert r.
    induction n as [|n IH]; intros [|x r] [|i] Hi; cbn; try lia; try reflexivity. apply IH. lia.
Qed.

Lemma vadd_length x y : length (vadd x y) = Nat.min (length x) (length y).
Proof. unfold vadd. now rewrite map_length, combine_length. Qed.
Lemma nth_vadd x y i : length x = length y -> nth i (vadd x y) 0 = nth i x 0 + nth i y 0.
Proof.
  revert y i. induction x as [|a x IH]; intros [|b y] i H; try discriminate H; [destruct i; cbn; lra|].
  destruct i as [|i]; [reflexivity|]. cbn. apply (IH y i). now injection H.
Qed.

(** numpy's addition into a slice that lies in the signal *)
Lemma splice_add b e a d : (0 <= b <= e)%Z -> (e <= Z.of_nat (length d))%Z -> Z.of_nat (length a) = (e - b)%Z ->
  let d' := splice b e (vadd (py_slice b e d) a) d in
  length d' = length d /\
  forall n, nth n d' 0 = nth n d 0 + (if ((b <=? Z.of_nat n) && (Z.of_nat n <? e))%Z%bool then nth (Z.to_nat (Z.of_nat n - b)) a 0 else 0).
Proof.
  intros Hb He Ha. cbv zeta. unfold splice, py_slice. rewrite !py_bound_in by lia.
  set (lo := Z.to_nat b). set (hi := Z.to_nat e). replace (Nat.max lo hi) with hi by lia.
  assert (LS : length (slice lo hi d) = (hi - lo)%nat) by (apply slice_length; lia).
  assert (LA : length a = (hi - lo)%nat) by lia.
  assert (LV : length (vadd (slice lo hi d) a) = (hi - lo)%nat) by (rewrite vadd_length; lia).
  split; [rewrite !app_length, firstn_length, skipn_length, LV; lia|].
  intros n. destruct (Z.leb_spec b (Z.of_nat n)); cbn [andb].
  - rewrite app_nth2; rewrite firstn_length_le by lia; [|lia]. destruct (Z.ltb_spec (Z.of_nat n) e).
    + rewrite app_nth1 by lia. rewrite nth_vadd by lia. rewrite nth_slice by lia.
      replace (lo + (n - lo))%nat with n by lia. replace (Z.to_nat (Z.of_nat n - b)) with (n - lo)%nat by lia. reflexivity.
    + rewrite app_nth2 by lia. rewrite LV. rewrite Rplus_0_r. rewrite <- (firstn_skipn hi d) at 2.
      rewrite (app_nth2 (firstn hi d)); rewrite firstn_length_le by lia; [|lia]. f_equal. lia.
  - rewrite app_nth1 by (rewrite firstn_length; lia). rewrite Rplus_0_r. rewrite <- (firstn_skipn lo d) at 2.
    rewrite (app_nth1 (firstn lo d)) by (rewrite firstn_length; lia). reflexivity.
Qed.

Lemma spectra_length N Ns h cols : length (spectra N Ns h cols) = (N / 2 + 1)%nat.
Proof. unfold spectra. now rewrite map_length, seq_length. Qed.
Lemma spectra_nth N Ns h cols b c : (b < N / 2 + 1)%nat -> (c < length cols)%nat ->
  nth c (nth b (spectra N Ns h cols) []) czero = (dft N (fun m => cr (nth m (nth c cols []) 0%R * nth m h 0%R)) b * cr (/ sqrt (INR Ns)))%cx.
Proof.
  intros Hb Hc. unfold spectra. rewrite nth_map_seq by exact Hb.
  rewrite (nth_indep _ czero ((fun col => (dft N (fun m => cr (nth m col 0%R * nth m h 0%R)) b * cr (/ sqrt (INR Ns)))%cx) [])) by (rewrite map_length; exact Hc).
  exact (map_nth (fun col => (dft N (fun m => cr (nth m col 0%R * nth m h 0%R)) b * cr (/ sqrt (INR Ns)))%cx) cols [] c).
Qed.
Lemma spectra_firstn N Ns h cols n : map (firstn n) (spectra N Ns h cols) = spectra N Ns h (firstn n cols).
Proof. unfold spectra. rewrite map_map. apply map_ext. intros b. apply firstn_map. Qed.

Lemma nth_enum {A B} (f : nat * A -> B) (l : list A) i da db : (i < length l)%nat ->
  nth i (map f (combine (seq 0 (length l)) l)) db = f (i, nth i l da).
Proof.
  intros H. rewrite (nth_indep _ db (f (0%nat, da))) by (rewrite map_length, combine_length, seq_length; lia).
  rewrite map_nth. rewrite combine_nth by (now rewrite seq_length). now rewrite seq_nth.
Qed.

Lemma div2_double q : (2 * q / 2 = q)%nat.
Proof. rewrite Nat.mul_comm. apply Nat.div_mul. discriminate. Qed.

(** One WOLA estimate. *)
Lemma wola_estimate_ok q Ns f h w cols e d d' :
  (0 < q)%nat -> (0 < Ns)%nat -> length f = (2 * q)%nat -> (0 <= e <= Z.of_nat (length d))%Z -> length w = length cols ->
  wola_estimate Ns f w (spectra (2 * q) Ns h cols) (Z.max (e - Z.of_nat (2 * q)) 0) e d = Ok d' ->
  exists x, filtered q h w (length cols) (fun ch m => nth m (nth ch cols []) 0) x /\ length d' = length d /\
    forall n, nth n d' 0 = nth n d 0 + placed (2 * q) e (fun j => nth j f 0 * x j) n.
Proof.
  intros Hq HNs Hf He Hw. unfold wola_estimate. rewrite Hf. cbv zeta.
  set (dhat := map _ (combine _ (spectra (2 * q) Ns h cols))).
  assert (LH : length dhat = (q + 1)%nat).
  { unfold dhat. rewrite map_length, combine_length, seq_length, spectra_length, div2_double. lia. }
  destruct (C20_real_result q dhat Hq LH) as (x' & out & E & Lx & Hx & Lo & Ro & Ho). rewrite E. cbn [bind snd].
  set (cur := map _ (seq 0 (2 * q))).
  set (b := Z.max (e - Z.of_nat (2 * q)) 0).
  intros H.
  assert (Hbe : (0 <= b <= e)%Z) by lia.
  assert (LO : Z.of_nat (length (py_slice b e d)) = (e - b)%Z).
  { unfold py_slice. rewrite !py_bound_in by lia. rewrite slice_length by lia. lia. }
  assert (LC : length cur = (2 * q)%nat) by (unfold cur; now rewrite map_length, seq_length).
  apply bind_ok in H. destruct H as (a & Ha & Hd). injection Hd as <-.
  assert (HA : Z.of_nat (length a) = (e - b)%Z /\ forall i, (i < length a)%nat -> nth i a 0 = nth (2 * q - length a + i) cur 0).
  { destruct (Nat.ltb_spec (length (py_slice b e d)) (2 * q)) as [Hlt|Hge].
    - unfold py_from, py_bound in Ha. rewrite LC in Ha.
      destruct (Z.ltb_spec (- Z.of_nat (length (py_slice b e d))) 0) as [Hneg|Hz].
      + replace (Z.to_nat _) with (2 * q - length (py_slice b e d))%nat in Ha by lia.
        unfold fit in Ha. rewrite skipn_length, LC in Ha.
        destruct (Nat.eqb_spec (2 * q - (2 * q - length (py_slice b e d))) (length (py_slice b e d))) as [_|N]; [|lia].
        injection Ha as <-. rewrite skipn_length, LC. split; [lia|]. intros i Hi.
        rewrite <- (firstn_skipn (2 * q - length (py_slice b e d)) cur) at 2.
        rewrite app_nth2; rewrite firstn_length_le by lia; [|lia]. f_equal. lia.
      + replace (Z.to_nat _) with 0%nat in Ha by lia. cbn [skipn] in Ha. unfold fit in Ha. rewrite LC in Ha.
        destruct (Nat.eqb_spec (2 * q) (length (py_slice b e d))) as [?|_]; [lia|].
        destruct (Nat.eqb_spec (2 * q) 1) as [?|_]; [lia|discriminate].
    - unfold fit in Ha. rewrite LC in Ha. assert (e - b = Z.of_nat (2 * q))%Z by lia.
      destruct (Nat.eqb_spec (2 * q) (length (py_slice b e d))) as [_|?]; [|lia].
      injection Ha as <-. rewrite LC. split; [lia|]. intros i Hi. f_equal. lia. }
  destruct HA as [LA HA].
  exists (fun j => sqrt (INR Ns) * re (nth j out czero)).
  assert (SN : sqrt (INR Ns) <> 0) by (apply Rgt_not_eq, sqrt_lt_R0; apply lt_0_INR; lia).
  destruct (splice_add b e a d Hbe (proj2 He) LA) as [L' N']. split; [|split; [exact L'|]].
  - intros bb Hbb.
    assert (E1 : dft (2 * q) (fun m => cr (sqrt (INR Ns) * re (nth m out czero))) bb = (cr (sqrt (INR Ns)) * dft (2 * q) (fun m => nth m out czero) bb)%cx).
    { unfold dft. rewrite <- csum_scale. apply csum_ext. intros m Hm.
      assert (Ei : im (nth m out czero) = 0) by (rewrite Forall_forall in Ro; apply Ro, nth_In; lia).
      rewrite cr_mul. replace (cr (re (nth m out czero))) with (nth m out czero); [ring|].
      apply cx_eq; cbn; [reflexivity|exact Ei]. }
    rewrite E1, (Ho bb Hbb), (Hx bb Hbb).
    assert (E2 : nth bb dhat czero = (cr (/ sqrt (INR Ns)) * csum (length cols) (fun ch => (conj (nth bb (nth ch w []) czero) * dft (2 * q) (fun m => cr (nth m h 0 * nth m (nth ch cols []) 0)) bb)%cx))%cx).
    { unfold dhat. rewrite (nth_enum _ _ _ [] czero) by (rewrite spectra_length, div2_double; lia). cbn [fst snd].
      rewrite Hw, <- csum_scale. apply csum_ext. intros c Hc. rewrite spectra_nth by (rewrite ?div2_double; lia).
      rewrite (dft_ext (2 * q) (fun m => cr (nth m h 0 * nth m (nth c cols []) 0)) (fun m => cr (nth m (nth c cols []) 0 * nth m h 0)))
        by (intros; f_equal; ring).
      ring. }
    unfold real_at. rewrite E2. destruct (Nat.eqb bb 0 || Nat.eqb bb q)%bool.
    + apply cx_eq; cbn; [|ring]. field_simplify; [reflexivity|exact SN].
    + match goal with |- (_ * (_ * ?X))%cx = _ => replace (cr (sqrt (INR Ns)) * (cr (/ sqrt (INR Ns)) * X))%cx with ((cr (sqrt (INR Ns)) * cr (/ sqrt (INR Ns))) * X)%cx by ring end.
      rewrite <- cr_mul, Rinv_r by exact SN. change (cr 1) with cone. ring.
  - intros n. rewrite N'. f_equal. unfold placed. cbv zeta.
    destruct (Z.leb_spec b (Z.of_nat n)); destruct (Z.ltb_spec (Z.of_nat n) e); cbn [andb];
      destruct (Z.leb_spec (e - Z.of_nat (2 * q)) (Z.of_nat n)); cbn [andb]; try lia; try reflexivity.
    rewrite HA by lia. unfold cur.
    rewrite nth_map_seq by lia.
    replace (2 * q - length a + Z.to_nat (Z.of_nat n - b))%nat with (Z.to_nat (Z.of_nat n - (e - Z.of_nat (2 * q)))) by lia.
    ring.
Qed.
