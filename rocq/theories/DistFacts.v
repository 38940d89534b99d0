(** Lemmas for C67: the time-domain filter and the samples sent. *)
From Verif Require Import Base BaseFacts Sched Buffers BufFacts Chunk ChunkSpec ChunkFacts ChunkProps Cx CxFacts Wola WolaFacts WolaProps Dist Online OnlineSpec OutSpec OutFacts OutFacts2 OutFacts3 DistSpec.
From Coq Require Import Reals Lra.
Local Open Scope R_scope.

Lemma mod_wrap m n : (0 < n)%nat -> (m < 2 * n - 1)%nat -> (n - 1 - (2 * n - 1 - m) mod n = m mod n)%nat.
Proof.
  intros Hn Hm. destruct (le_lt_dec n m) as [H|H].
  - rewrite (Nat.mod_small (2 * n - 1 - m) n) by lia. replace m with ((m - n) + 1 * n)%nat at 2 by lia.
    rewrite Nat.mod_add, Nat.mod_small by lia. lia.
  - replace (2 * n - 1 - m)%nat with ((n - 1 - m) + 1 * n)%nat by lia. rewrite Nat.mod_add, Nat.mod_small, Nat.mod_small by lia. lia.
Qed.
Lemma periodic_index n g m : (0 < n)%nat -> periodic n g (Z.of_nat m - Z.of_nat n) = g (m mod n)%nat.
Proof.
  intros Hn. unfold periodic. f_equal. replace (Z.of_nat m - Z.of_nat n)%Z with (Z.of_nat m + (-1) * Z.of_nat n)%Z by lia.
  rewrite Z.mod_add by lia. rewrite <- Nat2Z.inj_mod. apply Nat2Z.id.
Qed.

Lemma trace_corr n h f (w : list R) m : (0 < n)%nat -> length h = n -> length f = n -> (m < 2 * n - 1)%nat ->
  trace_at n (fun i j => nth i f 0 * circulant_flip n w i j * nth j h 0) m =
  nth (m mod n) w 0 * window_corr h f (Z.of_nat m - Z.of_nat n + 1).
Proof.
  intros Hn Hh Hf Hm. unfold trace_at, window_corr. rewrite Hf, <- sumR_scale. apply sumR_ext. intros i Hi.
  unfold sample. destruct (Z.ltb_spec (Z.of_nat i + (Z.of_nat m - Z.of_nat n + 1)) 0) as [HL|HL].
  - rewrite sumR_zero; [ring|]. intros j Hj. destruct (Nat.eqb_spec (j + (n - 1)) (i + m)); [lia|reflexivity].
  - set (j0 := Z.to_nat (Z.of_nat i + (Z.of_nat m - Z.of_nat n + 1))).
    destruct (lt_dec j0 n) as [Hj0|Hj0].
    + rewrite (sumR_window n j0 1); [|lia|intros j Hj Hne; destruct (Nat.eqb_spec (j + (n - 1)) (i + m)); [unfold j0 in *; lia|reflexivity]].
      cbn [sumR]. rewrite Nat.add_0_r. destruct (Nat.eqb_spec (j0 + (n - 1)) (i + m)); [|unfold j0 in *; lia].
      unfold circulant_flip. replace (i + n - j0)%nat with (2 * n - 1 - m)%nat by (unfold j0 in *; lia). rewrite mod_wrap by lia. ring.
    + rewrite (nth_overflow h) by lia. rewrite sumR_zero; [ring|]. intros j Hj. destruct (Nat.eqb_spec (j + (n - 1)) (i + m)); [unfold j0 in *; lia|reflexivity].
Qed.

Lemma dist_one_ok q h f hop w : (0 < q)%nat -> length h = (2 * q)%nat -> length f = (2 * q)%nat -> length w = (q + 1)%nat ->
  exists r g, dist_one h f hop w = Ok r /\ impulse q w g /\ length r = (2 * (2 * q) - 1)%nat /\
    forall m, (m < 2 * (2 * q) - 1)%nat -> nth m r 0 = response h f hop (2 * q) g (Z.of_nat m - Z.of_nat (2 * q)).
Proof.
  intros Hq Hh Hf Hw. destruct (C20_real_result q (map conj w) Hq ltac:(now rewrite map_length)) as (x' & out & E & _ & Hx & Lo & Ro & Ho).
  unfold dist_one. rewrite Hh, Hf, Nat.eqb_refl, E. cbn [bind snd negb]. eexists. exists (fun m => re (nth m out czero)).
  split; [reflexivity|]. split; [|split].
  - intros b Hb. rewrite (dft_ext (2 * q) _ (fun m => nth m out czero)).
    + rewrite (Ho b Hb), (Hx b Hb). unfold real_at.
      assert (EC : nth b (map conj w) czero = conj (nth b w czero)).
      { rewrite (nth_indep (map conj w) czero (conj czero)) by (rewrite map_length; lia). apply map_nth. }
      now rewrite EC.
    + intros m Hm. assert (Ei : im (nth m out czero) = 0) by (rewrite Forall_forall in Ro; apply Ro, nth_In; lia).
      apply cx_eq; [reflexivity|symmetry; exact Ei].
  - rewrite map_length, seq_length. reflexivity.
  - intros m Hm. rewrite nth_map_seq by exact Hm. rewrite trace_corr by lia. unfold response. rewrite periodic_index by lia.
    assert (ER : nth (m mod (2 * q)) (map re out) 0 = re (nth (m mod (2 * q)) out czero)) by (apply (map_nth re out czero)).
    rewrite ER. unfold Rdiv. ring.
Qed.

Lemma dist_ok q h f hop ws : (0 < q)%nat -> length h = (2 * q)%nat -> length f = (2 * q)%nat -> Forall (fun w => length w = (q + 1)%nat) ws ->
  exists r, dist_fct_approx h f hop ws = Ok r /\ length r = length ws /\
    forall ch, (ch < length ws)%nat -> exists g, impulse q (nth ch ws []) g /\ length (nth ch r []) = (2 * (2 * q) - 1)%nat /\
      forall m, (m < 2 * (2 * q) - 1)%nat -> nth m (nth ch r []) 0 = response h f hop (2 * q) g (Z.of_nat m - Z.of_nat (2 * q)).
Proof.
  intros Hq Hh Hf HF. unfold dist_fct_approx. induction ws as [|w ws IH]; [exists []; cbn; split; [reflexivity|split; [reflexivity|intros; lia]]|].
  inversion HF as [|? ? H1 H2]; subst. destruct (dist_one_ok q h f hop w Hq Hh Hf H1) as (r0 & g & E & Hg & L & Hr). destruct (IH H2) as (r & Er & Lr & HR).
  exists (r0 :: r). cbn [mapM]. rewrite E. cbn [bind]. rewrite Er. cbn [bind]. split; [reflexivity|]. split; [cbn; now rewrite Lr|].
  intros [|ch] Hch; [exists g; auto|]. apply HR. cbn in Hch. lia.
Qed.

(** Impulse responses are determined by the coefficients. *)
Lemma impulse_inj q w g g' : (0 < q)%nat -> impulse q w g -> impulse q w g' -> forall m, (m < 2 * q)%nat -> g m = g' m.
Proof. intros Hq H H' m Hm. apply (half_spectrum_inj q g g' Hq); [|exact Hm]. intros b Hb. now rewrite H, H'. Qed.

(** Convolution of a frame with a time-domain filter. *)
Lemma conv_known a N e col frame l L :
  length a = (2 * N - 1)%nat -> length frame = N -> (0 < N)%nat ->
  (forall m, (m < N)%nat -> nth m frame 0 = sample 0 col (e - Z.of_nat N + Z.of_nat m)) ->
  conv a frame (Z.of_nat (2 * N - 1) - Z.of_nat L + 1 + Z.of_nat l) =
  sumR (2 * N - 1) (fun i => let j := (Z.of_nat i - Z.of_nat N)%Z in nth i a 0 * known N e col (e - Z.of_nat L + Z.of_nat l - j)).
Proof.
  intros La Lf HN Hf. unfold conv. rewrite La. apply sumR_ext. intros i Hi. cbv zeta. f_equal. unfold known.
  set (p := (Z.of_nat (2 * N - 1) - Z.of_nat L + 1 + Z.of_nat l - Z.of_nat i)%Z).
  replace (e - Z.of_nat L + Z.of_nat l - (Z.of_nat i - Z.of_nat N))%Z with (e - Z.of_nat N + p)%Z by (unfold p; lia).
  unfold sample at 1. destruct (Z.ltb_spec p 0).
  - destruct (Z.leb_spec (e - Z.of_nat N) (e - Z.of_nat N + p)); [lia|reflexivity].
  - destruct (Z.leb_spec (e - Z.of_nat N) (e - Z.of_nat N + p)); [|lia]. cbn [andb].
    destruct (Z.ltb_spec (e - Z.of_nat N + p) e).
    + rewrite Hf by lia. f_equal. lia.
    + apply nth_overflow. lia.
Qed.
