(** Filtering and SNR at a microphone. *)
From Verif Require Import Base BaseFacts Level LevelSpec LevelFacts.
From Coq Require Import Reals Lra.
Local Open Scope R_scope.

Lemma rsum_zero f l : (forall k : nat, In k l -> f k = 0) -> rsum (map f l) = 0.
Proof. induction l as [|a l IH]; intros H; [reflexivity|]. cbn. rewrite H by (left; reflexivity). fold (rsum (map f l)). rewrite IH; [ring|]. intros k Hk. apply H. right. exact Hk. Qed.
Lemma rsum_upto f n m : (n <= m)%nat -> (forall k, (n <= k < m)%nat -> f k = 0) -> rsum (map f (seq 0 m)) = rsum (map f (seq 0 n)).
Proof.
  intros H1 H2. replace m with (n + (m - n))%nat by lia. rewrite seq_app, map_app, rsum_app, (rsum_zero f (seq (0 + n) (m - n))); [ring|].
  intros k Hk. apply in_seq in Hk. apply H2. lia.
Qed.
Lemma conv_range ir x t : rsum (map (fun k => nth k ir 0 * (if Nat.leb k t then nth (t - k) x 0 else 0)) (seq 0 (length ir))) = conv_at ir x t.
Proof.
  set (f := fun k => nth k ir 0 * (if Nat.leb k t then nth (t - k) x 0 else 0)). unfold conv_at.
  transitivity (rsum (map f (seq 0 (Nat.max (length ir) (S t))))).
  - symmetry. apply rsum_upto; [lia|]. intros k Hk. unfold f. rewrite nth_overflow by lia. ring.
  - rewrite (rsum_upto f (S t)); [|lia|intros k Hk; unfold f; destruct (Nat.leb_spec k t); [lia | ring]].
    unfold rsum. f_equal. apply map_ext_in. intros k Hk. apply in_seq in Hk. unfold f. destruct (Nat.leb_spec k t); [reflexivity | lia].
Qed.
Lemma lfilter_at ir x : lfilter ir x = map (conv_at ir x) (seq 0 (length x)).
Proof. unfold lfilter. apply map_ext. intros n. apply conv_range. Qed.
Lemma vadd_map f g l : vadd (map f l) (map g l) = map (fun t : nat => f t + g t) l.
Proof. unfold vadd. induction l as [|a l IH]; [reflexivity|]. cbn. f_equal. exact IH. Qed.
Lemma mic_at n irs ds : (forall d, In d ds -> length d = n) -> mic_signal n irs ds = map (received irs ds) (seq 0 n).
Proof.
  intros H. unfold mic_signal. rewrite <- fold_left_rev_right.
  assert (A : forall l : list (list R * list R), (forall p, In p l -> length (snd p) = n) ->
    fold_right (fun p acc => vadd acc (lfilter (fst p) (snd p))) (repeat 0 n) l = map (fun t => rsum (map (fun p => conv_at (fst p) (snd p) t) l)) (seq 0 n)).
  { induction l as [|p l IH]; intros Hl.
    - cbn. clear. generalize 0%nat. induction n as [|n IH]; intros s; [reflexivity|]. cbn. f_equal. apply IH.
    - cbn [fold_right]. rewrite IH by (intros q Hq; apply Hl; right; exact Hq). rewrite lfilter_at, (Hl p (or_introl eq_refl)), vadd_map.
      apply map_ext. intros t. cbn [map]. unfold rsum. cbn [fold_right]. ring. }
  rewrite A.
  - apply map_ext. intros t. unfold received. fold (rsum (map (fun p => conv_at (fst p) (snd p) t) (combine irs ds))). rewrite map_rev.
    generalize (map (fun p => conv_at (fst p) (snd p) t) (combine irs ds)). induction l as [|a l IH]; [reflexivity|].
    cbn [rev]. rewrite rsum_app, IH. unfold rsum. cbn [fold_right]. ring.
  - intros [ir d] Hp. apply in_rev in Hp. apply in_combine_r in Hp. apply H. exact Hp.
Qed.
Lemma energy_at n f : energy (map f (seq 0 n)) = energy_of n f.
Proof. unfold energy, energy_of, rsum. rewrite map_map. f_equal. apply map_ext. intros t. ring. Qed.

Lemma mic_snr' irs ds ir_n n snr : (forall d, In d ds -> length d = length n) ->
  0 < energy_of (length n) (received irs ds) -> 0 < energy_of (length n) (conv_at ir_n n) ->
  length (noise_for_mic_snr irs ds ir_n n snr) = length n /\
  energy_of (length n) (received irs ds) / energy_of (length n) (conv_at ir_n (noise_for_mic_snr irs ds ir_n n snr)) = dB_ratio snr.
Proof.
  intros H H1 H2. assert (L : length (noise_for_mic_snr irs ds ir_n n snr) = length n) by (unfold noise_for_mic_snr, scale; apply map_length).
  split; [exact L|]. rewrite <- L at 2. rewrite <- (energy_at (length (noise_for_mic_snr _ _ _ _ _))), <- lfilter_at.
  rewrite <- energy_at, <- mic_at by exact H. apply mic_snr; [rewrite mic_at, energy_at by exact H; exact H1 | rewrite lfilter_at, energy_at; exact H2].
Qed.
