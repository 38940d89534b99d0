(** Lemmas for BatchTimeProps.v. *)
From Verif Require Import Base BaseFacts Cx CxFacts ChunkSpec ChunkFacts WolaFacts BatchTime.
From Coq Require Import Reals Lra.
Local Open Scope R_scope.

(** ** Numbers of frames *)
Lemma n_iter_val L H N : (0 < H)%nat -> (L <= N)%nat -> n_iter L H N = ((N - L) / H + 1)%nat.
Proof.
  intros HH HL. unfold n_iter. rewrite <- Nat2Z.inj_sub by exact HL. rewrite Z.quot_div_nonneg by lia. rewrite <- Nat2Z.inj_div. generalize ((N - L) / H)%nat. intros a. lia.
Qed.
Lemma frames_val L H N : (0 < H)%nat -> (H <= L)%nat -> (L <= N)%nat ->
  stft_frames L H N = Ok (if Nat.eqb ((N - L) mod H) 0 then n_iter L H N else n_iter L H N + 1)%nat.
Proof.
  intros HH HL HN. rewrite n_iter_val by assumption. unfold stft_frames, appended. destruct (Nat.ltb_spec N L); [lia|]. f_equal.
  set (D := (N - L)%nat). assert (ED : (Z.of_nat N - Z.of_nat L = Z.of_nat D)%Z) by (unfold D; lia). rewrite ED.
  assert (B := Z.mod_pos_bound (- Z.of_nat D) (Z.of_nat H) ltac:(lia)). rewrite (Z.mod_small _ (Z.of_nat L)) by lia.
  assert (HD : D = (H * (D / H) + D mod H)%nat) by (apply Nat.div_mod; lia). assert (HM := Nat.mod_upper_bound D H ltac:(lia)).
  set (a := (D / H)%nat) in *. set (r := (D mod H)%nat) in *.
  destruct (Nat.eqb_spec r 0) as [E|E].
  - assert (M : ((- Z.of_nat D) mod Z.of_nat H = 0)%Z) by (replace (- Z.of_nat D)%Z with ((- Z.of_nat a) * Z.of_nat H)%Z by lia; apply Z.mod_mul; lia). rewrite M.
    replace (Z.of_nat N + 0 - (Z.of_nat L - Z.of_nat H))%Z with ((Z.of_nat a + 1) * Z.of_nat H)%Z by lia. rewrite Z.div_mul by lia. lia.
  - assert (M : ((- Z.of_nat D) mod Z.of_nat H = Z.of_nat H - Z.of_nat r)%Z).
    { symmetry. apply (Z.mod_unique_pos _ _ (- Z.of_nat a - 1)); lia. }
    rewrite M. replace (Z.of_nat N + (Z.of_nat H - Z.of_nat r) - (Z.of_nat L - Z.of_nat H))%Z with ((Z.of_nat a + 2) * Z.of_nat H)%Z by lia. rewrite Z.div_mul by lia. lia.
Qed.
Lemma covered L H N : (0 < H)%nat -> (L <= N)%nat -> (L + (n_iter L H N - 1) * H <= N < L + n_iter L H N * H)%nat.
Proof.
  intros HH HN. rewrite n_iter_val by assumption. pose proof (Nat.div_mod (N - L) H ltac:(lia)). pose proof (Nat.mod_upper_bound (N - L) H ltac:(lia)). nia.
Qed.

(** ** Transforms *)
Lemma irfft_dft q u m : (0 < q)%nat -> (m < 2 * q)%nat -> irfft q (dft (2 * q) (fun i => cr (u i))) m = u m.
Proof.
  intros Hq Hm. unfold irfft. rewrite (idft_ext (2 * q) _ (dft (2 * q) (fun i => cr (u i)))); [rewrite idft_dft by exact Hm; reflexivity|].
  assert (R0 : forall i, (i < 2 * q)%nat -> im (cr (u i)) = 0) by reflexivity. intros k Hk. unfold mirrored. destruct (Nat.eqb_spec k 0) as [E0|E0], (Nat.eqb_spec k q) as [E1|E1]; cbn [orb].
  1-3: symmetry; apply cx_eq; [reflexivity|]; cbn [cr im]; apply dft_real_end; [exact R0|lia|lia].
  destruct (Nat.ltb_spec k q); [reflexivity|]. rewrite <- dft_conj_sym by (exact R0 || lia). f_equal. lia.
Qed.
Lemma idft_add n X Y m : idft n (fun k => (X k + Y k)%cx) m = (idft n X m + idft n Y m)%cx.
Proof. unfold idft. rewrite (csum_ext n _ (fun k => X k * cis (2 * PI * INR k * INR m / INR n) + Y k * cis (2 * PI * INR k * INR m / INR n))%cx) by (intros; ring). rewrite csum_add. ring. Qed.
Lemma dft_add n x y k : dft n (fun m => (x m + y m)%cx) k = (dft n x k + dft n y k)%cx.
Proof. unfold dft. rewrite <- csum_add. apply csum_ext. intros. ring. Qed.
Lemma irfft_add q X Y m : irfft q (fun k => (X k + Y k)%cx) m = irfft q X m + irfft q Y m.
Proof.
  unfold irfft. rewrite (idft_ext (2 * q) _ (fun k => mirrored q X k + mirrored q Y k)%cx); [rewrite idft_add; reflexivity|].
  intros k _. unfold mirrored. destruct (Nat.eqb k 0 || Nat.eqb k q); [apply cx_eq; cbn; ring|]. destruct (Nat.ltb k q); [reflexivity|]. apply conj_add.
Qed.
Lemma irfft_ext q X Y m : (forall k, (k <= q)%nat -> X k = Y k) -> irfft q X m = irfft q Y m.
Proof.
  intros E. unfold irfft. f_equal. apply idft_ext. intros k Hk. unfold mirrored. destruct (Nat.eqb_spec k 0), (Nat.eqb_spec k q); cbn [orb]; try (rewrite E by lia; reflexivity).
  destruct (Nat.ltb_spec k q); [apply E; lia|]. rewrite E by lia. reflexivity.
Qed.
Lemma sumR_add n f g : sumR n (fun i => f i + g i) = sumR n f + sumR n g.
Proof. induction n as [|n IH]; cbn; [ring|]. rewrite IH. ring. Qed.

Section S.
  Variables (q H : nat) (w : nat -> R).
  Let L := (2 * q)%nat.
  Hypothesis HW : wsum q w <> 0.
  Lemma y_stft_val N x t f : y_stft q H w N x t f = dft L (fun m => cr (padded N x (t * H + m) * w m)) f.
  Proof.
    unfold y_stft, stft. fold L. set (d := dft L _ f). replace (d * cr (/ wsum q w) * cr (wsum q w))%cx with (d * (cr (/ wsum q w) * cr (wsum q w)))%cx by ring. rewrite <- cr_mul, Rinv_l by exact HW. change (cr 1) with cone. ring.
  Qed.
  Lemma istft_add F X Y n : istft q H w F (fun t f => (X t f + Y t f)%cx) n = istft q H w F X n + istft q H w F Y n.
  Proof.
    unfold istft, Rdiv. rewrite <- Rmult_plus_distr_r. f_equal. rewrite <- sumR_add. apply sumR_ext. intros t _. destruct (covers q H t n); [|ring]. rewrite irfft_add. ring.
  Qed.
  Lemma istft_ext F X Y n : (forall t f, (t < F)%nat -> (f <= q)%nat -> X t f = Y t f) -> istft q H w F X n = istft q H w F Y n.
  Proof. intros E. unfold istft. f_equal. apply sumR_ext. intros t Ht. destruct (covers q H t n); [|reflexivity]. do 2 f_equal. apply irfft_ext. intros k Hk. apply E; assumption. Qed.
  Lemma combine_add N C x1 x2 g t f : combine_channels q H w N C (fun c n => x1 c n + x2 c n) g t f = (combine_channels q H w N C x1 g t f + combine_channels q H w N C x2 g t f)%cx.
  Proof.
    unfold combine_channels. rewrite <- csum_add. apply csum_ext. intros c _. rewrite !y_stft_val. rewrite (dft_ext L _ (fun m => (cr (padded N (x1 c) (t * H + m) * w m) + cr (padded N (x2 c) (t * H + m) * w m))%cx)); [rewrite dft_add; ring|].
    intros m _. unfold padded. destruct (Nat.ltb _ _); apply cx_eq; cbn; ring.
  Qed.
  (** Frames of a signal give the signal back where the windows do not vanish. *)
  Lemma istft_stft F N x n : (0 < q)%nat -> (n < N)%nat -> / 10 ^ 10 < energy q H w F n -> istft q H w F (y_stft q H w N x) n = wsum q w * x n.
  Proof.
    intros Hq Hn He. unfold istft. destruct (Rlt_dec _ _) as [_|C]; [|contradiction]. assert (0 < energy q H w F n) by (apply Rlt_trans with (/ 10 ^ 10); [apply Rinv_0_lt_compat, pow_lt; lra|exact He]).
    assert (E : sumR F (fun t => if covers q H t n then irfft q (y_stft q H w N x t) (n - t * H)%nat * wsum q w * w (n - t * H)%nat else 0) = wsum q w * x n * energy q H w F n).
    { unfold energy. rewrite <- sumR_scale. apply sumR_ext. intros t Ht. destruct (covers q H t n) eqn:Ec; [|ring]. unfold covers in Ec. apply andb_prop in Ec. destruct Ec as [E1 E2]. apply Nat.leb_le in E1. apply Nat.ltb_lt in E2.
      rewrite (irfft_ext q _ (dft (2 * q) (fun i => cr (padded N x (t * H + i) * w i)))) by (intros; apply y_stft_val). rewrite irfft_dft by lia. unfold padded. replace (t * H + (n - t * H))%nat with n by lia. destruct (Nat.ltb_spec n N); [ring|lia]. }
    rewrite E. field. lra.
  Qed.
End S.
