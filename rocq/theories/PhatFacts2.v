(** Further facts about the DXCP-PhaT estimator: runs. *)
From Verif Require Import Base BaseFacts Cx CxFacts ChunkSpec ChunkFacts WolaFacts Phat PhatFacts.
From Coq Require Import Reals Lra.
Local Open Scope R_scope.

Section Runs2.
Variable c : config.
Hypothesis Hp : (0 < ups c)%nat.
Hypothesis Hl : (lambda c < half c)%nat.

(** the shape of one more update *)
Lemma updates_snoc tdoa bufs b s : updates c tdoa (st0 c) bufs = Ok s ->
  updates c tdoa (st0 c) (bufs ++ [b]) = update c (fst b) (snd b) tdoa s.
Proof. intros E. rewrite updates_app, E. cbn [bind updates]. destruct (update c (fst b) (snd b) tdoa s); reflexivity. Qed.
Lemma updates_last tdoa bufs b s' : updates c tdoa (st0 c) (bufs ++ [b]) = Ok s' ->
  exists s, updates c tdoa (st0 c) bufs = Ok s /\ update c (fst b) (snd b) tdoa s = Ok s'.
Proof.
  intros E. rewrite updates_app in E. destruct (updates c tdoa (st0 c) bufs) as [s|e]; [|discriminate]. exists s. split; [reflexivity|].
  cbn [bind updates] in E. destruct (update c (fst b) (snd b) tdoa s); [|discriminate]. exact E.
Qed.
Lemma ell_of tdoa bufs s : updates c tdoa (st0 c) bufs = Ok s -> ell s = S (length bufs) /\ started s = Nat.ltb 0 (length bufs) /\ length (cont s) = cont_frames c.
Proof. intros E. destruct (updates_total c Hp Hl tdoa bufs) as (s' & E' & A). rewrite E in E'. injection E' as ->. exact A. Qed.

(** [s'] after an update from [s]: the three cases *)
Definition g1_of (x1 x2 : nat -> R) (s : state) := average (started s) (alpha1 c) (gcsd1 s) (phat c x1 x2).
Definition act2_of (ct : list (nat -> cx)) (k : nat) : cx := (last ct zeros k * conj (hd zeros ct k))%cx.
Definition g2_of (s : state) (ct : list (nat -> cx)) := mask c (average (started s) (alpha2 c) (gcsd2 s) (act2_of ct)).
Definition off_of (s : state) (o : R) : R := o / 10 ^ 6 * INR (shift c) * (INR (ell s) - 1).
Definition cc_of (s : state) (t : R) (g1 : nat -> cx) (j : nat) : R :=
  let comp := correlation c (upsilon c) (mask c (unshift c t g1)) in
  if started s then alpha3 c * gccf1 s j + (1 - alpha3 c) * comp j else comp j.
Lemma update_inv x1 x2 tdoa s s' : update c x1 x2 tdoa s = Ok s' ->
  gcsd1 s' = g1_of x1 x2 s /\ cont s' = tl (cont s) ++ [gcsd1 s'] /\
  ((ell s < ell_corr c)%nat /\ gcsd2 s' = gcsd2 s /\ gccf1 s' = gccf1 s /\ sro s' = sro s /\ sto s' = sto s \/
   (ell_corr c <= ell s < ell_est c)%nat /\ gcsd2 s' = g2_of s (cont s') /\ gccf1 s' = gccf1 s /\ sro s' = sro s /\ sto s' = sto s \/
   (ell_est c <= ell s)%nat /\ gcsd2 s' = g2_of s (cont s') /\ sro_of c (correlation c (lambda c) (gcsd2 s')) = Ok (sro s') /\
   gccf1 s' = cc_of s (off_of s (sro s')) (gcsd1 s') /\ sto_of c tdoa (gccf1 s') = Ok (sto s')).
Proof.
  unfold update. cbv zeta. destruct (Nat.ltb (ell s) (ell_corr c)) eqn:E1.
  { intros E; injection E as <-. cbn [gcsd1 cont gcsd2 gccf1 sro sto ell started]. split; [reflexivity|]. split; [reflexivity|]. left. apply Nat.ltb_lt in E1. auto. }
  apply Nat.ltb_ge in E1. destruct (Nat.leb (half c) (lambda c)); [discriminate|].
  destruct (Nat.ltb (ell s) (ell_est c)) eqn:E2.
  { intros E; injection E as <-. cbn [gcsd1 cont gcsd2 gccf1 sro sto ell started]. split; [reflexivity|]. split; [reflexivity|]. right; left. apply Nat.ltb_lt in E2. auto 10. }
  apply Nat.ltb_ge in E2. match goal with |- context [sro_of c ?g] => destruct (sro_of c g) as [o|] eqn:EO end; [|discriminate]. cbn [bind].
  match goal with |- context [sto_of c tdoa ?g] => destruct (sto_of c tdoa g) as [d|] eqn:ED end; [|discriminate]. cbn [bind].
  intros E; injection E as <-. cbn [gcsd1 cont gcsd2 gccf1 sro sto ell started]. split; [reflexivity|]. split; [reflexivity|]. right; right. repeat (split; [assumption || reflexivity|]). exact ED.
Qed.

Lemma not_yet tdoa bufs s : updates c tdoa (st0 c) bufs = Ok s -> (length bufs < ell_est c)%nat -> sro s = 0 /\ sto s = 0 /\ gccf1 s = fun _ => 0.
Proof.
  revert s. induction bufs as [|b bufs IH] using rev_ind; intros s E L; [injection E as <-; auto|].
  apply updates_last in E as (s1 & E1 & E). rewrite app_length in L. cbn [length] in L. specialize (IH s1 E1 ltac:(lia)).
  destruct (ell_of _ _ _ E1) as (A & _ & _). destruct (update_inv _ _ _ _ _ E) as (_ & _ & [Q|[Q|Q]]).
  - destruct Q as (_ & _ & -> & -> & ->). exact IH.
  - destruct Q as (_ & _ & -> & -> & ->). exact IH.
  - destruct Q as (Q & _). lia.
Qed.
Lemma first_two : (1 < b_samples c)%nat -> (2 <= ell_corr c)%nat.
Proof. unfold b_samples, ell_corr, cont_frames. intros H. assert (accum_frames c <> 0)%nat by (intros Z; rewrite Z in H; lia). lia. Qed.

(** ** Silence *)
Lemma spectrum_zero x : (forall n, (n < size c)%nat -> x n = 0) -> forall k, spectrum c x k = czero.
Proof.
  intros H k. unfold spectrum. rewrite (dft_ext _ _ (fun _ => czero)). 2:{ intros m Hm. rewrite H by exact Hm. rewrite Rmult_0_l. reflexivity. }
  unfold dft. rewrite (csum_ext _ _ (fun _ => czero)); [apply csum_0|]. intros i _. ring.
Qed.
Lemma phat_zero x1 x2 : (forall n, (n < size c)%nat -> x1 n = 0) -> forall k, phat c x1 x2 k = czero.
Proof. intros H k. unfold phat. cbv zeta. rewrite (spectrum_zero x1 H). ring. Qed.
Lemma average_zero st al f g k : f k = czero -> g k = czero -> average st al f g k = czero.
Proof. intros Hf Hg. unfold average. rewrite Hf, Hg. destruct st; ring. Qed.
Lemma mask_zero X k : X k = czero -> mask c X k = czero.
Proof. intros H. unfold mask. destruct (masked c k); auto. Qed.
Lemma correlation_zero m X j : (forall k, X k = czero) -> correlation c m X j = 0.
Proof.
  intros H. unfold correlation, idft. rewrite (csum_ext _ _ (fun _ => czero)) by (intros k _; rewrite H; ring). rewrite csum_0. cbn [re cmul cr czero im]. ring.
Qed.
Lemma upsampled_zero m g i : (forall j, g j = 0) -> upsampled c m g i = 0.
Proof.
  intros H. unfold upsampled. cbv zeta. assert (D : forall k, dft (2 * m + 1) (fun j => cr (g j)) k = czero).
  { intros k. unfold dft. rewrite (csum_ext _ _ (fun _ => czero)); [apply csum_0|]. intros j _. rewrite H. apply cx_eq; cbn; ring. }
  rewrite D. rewrite (sumR_ext _ _ (fun _ => 0 * 0)). 2:{ intros k _. rewrite D. cbn [re cmul czero cr im]. ring. }
  rewrite (sumR_scale m 0 (fun _ => 0)). cbn [re czero cr]. ring.
Qed.
Lemma sro_of_zero g : (forall j, g j = 0) -> sro_of c g = Ok (- INR (lambda c) / INR (b_samples c) * 10 ^ 6).
Proof.
  intros H. unfold sro_of. rewrite (peak_flat _ 0). 2:{ intros x Hx. apply in_map_iff in Hx as (i & <- & _). apply upsampled_zero. exact H. }
  cbn [bind fst]. unfold Rdiv. rewrite Rmult_0_l, Rplus_0_r. reflexivity.
Qed.
Lemma sto_of_zero tdoa g : (forall j, g j = 0) -> sto_of c tdoa g = Ok (- INR (upsilon c)).
Proof.
  intros H. unfold sto_of. rewrite (peak_flat _ 0). 2:{ intros x Hx. apply in_map_iff in Hx as (i & <- & _). rewrite H. apply Rabs_R0. }
  cbn [bind fst snd]. f_equal. ring.
Qed.
Definition silent (s : state) : Prop :=
  (forall k, gcsd1 s k = czero) /\ (forall k f, In f (cont s) -> f k = czero) /\ (forall k, gcsd2 s k = czero) /\ (forall j, gccf1 s j = 0).
Lemma in_tl {A} (x : A) l : In x (tl l) -> In x l.
Proof. destruct l; cbn; auto. Qed.
Lemma last_hd_zero (l : list (nat -> cx)) k : (forall f, In f l -> f k = czero) -> last l zeros k = czero /\ hd zeros l k = czero.
Proof.
  intros H. destruct l as [|f l]; [split; reflexivity|]. split; [|apply H; left; reflexivity].
  apply H. clear H. revert f. induction l as [|g l IH]; intros f; [left; reflexivity|]. right. exact (IH g).
Qed.
Lemma silent_update x1 x2 tdoa s s' : (forall n, (n < size c)%nat -> x1 n = 0) -> silent s -> update c x1 x2 tdoa s = Ok s' ->
  silent s' /\ ((ell_est c <= ell s)%nat -> sro s' = - INR (lambda c) / INR (b_samples c) * 10 ^ 6 /\ sto s' = - INR (upsilon c)).
Proof.
  intros Hx (S1 & S2 & S3 & S4) E. destruct (update_inv _ _ _ _ _ E) as (E1 & E2 & Q).
  assert (G1 : forall k, gcsd1 s' k = czero) by (intros k; rewrite E1; apply average_zero; [apply S1|apply phat_zero; exact Hx]).
  assert (G2 : forall k f, In f (cont s') -> f k = czero).
  { intros k f Hf. rewrite E2 in Hf. apply in_app_or in Hf as [Hf|[<-|[]]]; [apply S2, in_tl; exact Hf|apply G1]. }
  assert (G3 : forall k, g2_of s (cont s') k = czero).
  { intros k. apply mask_zero, average_zero; [apply S3|]. unfold act2_of. destruct (last_hd_zero (cont s') k (G2 k)) as [-> ->]. apply cx_eq; cbn; ring. }
  assert (G4 : forall t j, cc_of s t (gcsd1 s') j = 0).
  { intros t j. unfold cc_of. cbv zeta. rewrite S4, correlation_zero. 2:{ intros k. apply mask_zero. unfold unshift. rewrite G1. ring. } destruct (started s); ring. }
  destruct Q as [(Q & A & B & C & D)|[(Q & A & B & C & D)|(Q & A & B & C & D)]].
  - split; [|intros; unfold ell_est in *; lia]. split; [exact G1|]. split; [exact G2|]. rewrite A, B. auto.
  - split; [|intros; lia]. split; [exact G1|]. split; [exact G2|]. rewrite A, B. auto.
  - split; [split; [exact G1|]; split; [exact G2|]; rewrite A, C; auto|]. intros _.
    rewrite sro_of_zero in B. 2:{ intros j. apply correlation_zero. rewrite A. exact G3. }
    rewrite sto_of_zero in D. 2:{ intros j. rewrite C. apply G4. } split; congruence.
Qed.
Lemma silent_run tdoa bufs s : (forall b n, In b bufs -> (n < size c)%nat -> fst b n = 0) -> updates c tdoa (st0 c) bufs = Ok s ->
  silent s /\ ((ell_est c <= length bufs)%nat -> (0 < length bufs)%nat -> sro s = - INR (lambda c) / INR (b_samples c) * 10 ^ 6 /\ sto s = - INR (upsilon c)).
Proof.
  revert s. induction bufs as [|b bufs IH] using rev_ind; intros s H E.
  - injection E as <-. split; [|cbn [length]; lia]. split; [reflexivity|]. split; [|split; reflexivity]. intros k f Hf. apply repeat_spec in Hf as ->. reflexivity.
  - apply updates_last in E as (s1 & E1 & E). destruct (IH s1) as [S _]; [intros b' n Hb Hn; apply H; [apply in_or_app; left; exact Hb|exact Hn]|exact E1|].
    assert (Hb : In b (bufs ++ [b])) by (apply in_or_app; right; left; reflexivity).
    destruct (silent_update _ _ _ _ _ (fun n => H b n Hb) S E) as [S' F]. split; [exact S'|].
    intros L _. apply F. destruct (ell_of _ _ _ E1) as (A & _ & _). rewrite app_length in L. cbn [length] in L. lia.
Qed.
End Runs2.
