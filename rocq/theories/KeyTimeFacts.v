From Verif Require Import Base BaseFacts KeyTime KeyTimeSpec.
From Coq Require Import QArith Qround Sorted Lqa.
Local Open Scope nat_scope.

Section V.
  Variable v : list bool.
  Let val i := nth i v false.
  Lemma val_speech i : i < length v -> speech v i <-> val i = true.
  Proof. intros H. unfold speech, val. rewrite (nth_error_nth' v false H). split; congruence. Qed.
  Lemma val_silence i : i < length v -> silence v i <-> val i = false.
  Proof. intros H. unfold silence, val. rewrite (nth_error_nth' v false H). split; congruence. Qed.
  Lemma speech_lt i : speech v i -> i < length v.
  Proof. intros H. apply nth_error_Some. unfold speech in H. congruence. Qed.
  Lemma silence_lt i : silence v i -> i < length v.
  Proof. intros H. apply nth_error_Some. unfold silence in H. congruence. Qed.

  Lemma changes_In i : In i (changes v) <-> 1 <= i < length v /\ val i <> val (i - 1).
  Proof.
    unfold changes. rewrite filter_In, in_seq, negb_true_iff, Bool.eqb_false_iff. fold (val i) (val (i - 1)). split; intros [H1 H2]; (split; [lia|exact H2]).
  Qed.
  Lemma seq_sorted a n : StronglySorted lt (seq a n).
  Proof. revert a. induction n as [|n IH]; intros a; cbn; constructor; [apply IH|]. apply Forall_forall. intros x Hx. apply in_seq in Hx. lia. Qed.
  Lemma filter_sorted (f : nat -> bool) l : StronglySorted lt l -> StronglySorted lt (filter f l).
  Proof.
    induction 1 as [|x l S IH F]; cbn; [constructor|]. destruct (f x); [|exact IH]. constructor; [exact IH|]. apply Forall_forall. intros z Hz. apply filter_In in Hz. rewrite Forall_forall in F. now apply F.
  Qed.
  Lemma changes_sorted : StronglySorted lt (changes v).
  Proof. apply filter_sorted, seq_sorted. Qed.
  Lemma sorted_nth (l : list nat) : StronglySorted lt l -> forall i j a b, nth_error l i = Some a -> nth_error l j = Some b -> i < j -> a < b.
  Proof.
    induction 1 as [|x l S IH F]; intros i j a b Hi Hj L; [destruct i; discriminate|]. destruct j as [|j]; [lia|]. destruct i as [|i].
    - injection Hi as <-. rewrite Forall_forall in F. apply F. exact (nth_error_In l j Hj).
    - apply (IH i j); [exact Hi|exact Hj|lia].
  Qed.
  Lemma sorted_inv i j a b : nth_error (changes v) i = Some a -> nth_error (changes v) j = Some b -> a < b -> i < j.
  Proof.
    intros Hi Hj L. destruct (Nat.lt_trichotomy i j) as [H|[->|H]]; [exact H| |].
    - assert (a = b) by congruence. lia.
    - pose proof (sorted_nth _ changes_sorted j i b a Hj Hi H). lia.
  Qed.
  (** no change, same value *)
  Lemma constant a b : a <= b -> b < length v -> (forall i, a < i <= b -> ~ In i (changes v)) -> val b = val a.
  Proof.
    intros H. induction H as [|b H IH]; intros L N; [reflexivity|]. rewrite <- IH; [|lia|intros i Hi; apply N; lia].
    destruct (Bool.bool_dec (val (S b)) (val b)) as [E|E]; [exact E|]. exfalso. apply (N (S b)); [lia|]. apply changes_In. split; [lia|]. replace (S b - 1) with b by lia. exact E.
  Qed.
  Lemma between i a b x : nth_error (changes v) i = Some a -> nth_error (changes v) (S i) = Some b -> a < x < b -> ~ In x (changes v).
  Proof.
    intros Hi Hj L I. apply In_nth_error in I. destruct I as (k & Hk). pose proof (sorted_inv i k a x Hi Hk ltac:(lia)). pose proof (sorted_inv k (S i) x b Hk Hj ltac:(lia)). lia.
  Qed.
  Lemma before_first a x : nth_error (changes v) 0 = Some a -> x < a -> ~ In x (changes v).
  Proof. intros Ha L I. apply In_nth_error in I. destruct I as (k & Hk). pose proof (sorted_inv k 0 x a Hk Ha L). lia. Qed.
  (** the values alternate *)
  Lemma alternate i : forall a, nth_error (changes v) i = Some a -> val a = xorb (val 0) (Nat.even i).
  Proof.
    induction i as [|i IH]; intros a Ha; pose proof (nth_error_In _ _ Ha) as I; apply changes_In in I; destruct I as [B N].
    - assert (E : val (a - 1) = val 0).
      { apply constant; [lia|lia|]. intros x Hx. apply (before_first a); [exact Ha|lia]. }
      rewrite E in N. cbn. destruct (val a), (val 0); cbn; congruence.
    - destruct (nth_error (changes v) i) as [c|] eqn:Hc; [|apply nth_error_None in Hc; assert (S i < length (changes v)) by (apply nth_error_Some; congruence); lia].
      specialize (IH c eq_refl). pose proof (sorted_nth _ changes_sorted i (S i) c a Hc Ha ltac:(lia)) as L.
      assert (E : val (a - 1) = val c).
      { apply constant; [lia|lia|]. intros x Hx. apply (between i c a); [exact Hc|exact Ha|lia]. }
      rewrite E, IH in N. rewrite Nat.even_succ, <- Nat.negb_even. destruct (val a), (val 0), (Nat.even i); cbn in *; congruence.
  Qed.

  Definition start : nat := if val 0 then 0 else 1.
  Lemma fall i a : nth_error (changes v) i = Some a -> (val a = false <-> exists j, i = start + 2 * j).
  Proof.
    intros H. rewrite (alternate i a H). unfold start. destruct (Nat.Even_or_Odd i) as [[k E]|[k E]]; destruct (val 0).
    - replace (Nat.even i) with true by (symmetry; apply Nat.even_spec; exists k; exact E). cbn. split; [intros _; exists k; lia|reflexivity].
    - replace (Nat.even i) with true by (symmetry; apply Nat.even_spec; exists k; exact E). cbn. split; [discriminate|intros (j & ?); lia].
    - replace (Nat.even i) with false by (symmetry; rewrite <- Nat.negb_odd; apply negb_false_iff, Nat.odd_spec; exists k; exact E). cbn. split; [discriminate|intros (j & ?); lia].
    - replace (Nat.even i) with false by (symmetry; rewrite <- Nat.negb_odd; apply negb_false_iff, Nat.odd_spec; exists k; exact E). cbn. split; [intros _; exists k; lia|reflexivity].
  Qed.
  (** the pauses are the pairs of changes *)
  Lemma pause_changes a b : pause v a b <-> exists j, nth_error (changes v) (start + 2 * j) = Some a /\ nth_error (changes v) (S (start + 2 * j)) = Some b.
  Proof.
    split.
    - intros (L & P & B & Q0). pose proof (speech_lt b B) as Lb. assert (Va : val a = false) by (apply val_silence; [lia|apply Q0; lia]).
      assert (Vb : val b = true) by (now apply val_speech). assert (Vp : val (a - 1) = true) by (apply val_speech; [lia|exact P]).
      assert (Vm : val (b - 1) = false) by (apply val_silence; [lia|apply Q0; lia]).
      assert (Ia : In a (changes v)) by (apply changes_In; split; [lia|congruence]). assert (Ib : In b (changes v)) by (apply changes_In; split; [lia|congruence]).
      apply In_nth_error in Ia. destruct Ia as (i & Hi). apply In_nth_error in Ib. destruct Ib as (k & Hk).
      destruct (proj1 (fall i a Hi) Va) as (j & ->). exists j. split; [exact Hi|]. pose proof (sorted_inv _ _ _ _ Hi Hk ltac:(lia)) as Lk.
      destruct (Nat.eq_dec k (S (start + 2 * j))) as [E|E]; [now rewrite <- E|exfalso].
      destruct (nth_error (changes v) (S (start + 2 * j))) as [c|] eqn:Hc.
      + pose proof (sorted_nth _ changes_sorted _ _ _ _ Hi Hc ltac:(lia)). pose proof (sorted_nth _ changes_sorted _ _ _ _ Hc Hk ltac:(lia)).
        apply nth_error_In, changes_In in Hc. destruct Hc as [_ Hc]. apply Hc. transitivity false; [|symmetry]; apply val_silence; try lia; apply Q0; lia.
      + apply nth_error_None in Hc. assert (k < length (changes v)) by (apply nth_error_Some; congruence). lia.
    - intros (j & Hi & Hk). pose proof (sorted_nth _ changes_sorted _ _ _ _ Hi Hk ltac:(lia)) as L. assert (Va : val a = false) by (apply (fall _ a Hi); now exists j).
      pose proof (nth_error_In _ _ Hi) as Ia. pose proof (nth_error_In _ _ Hk) as Ib. apply changes_In in Ia, Ib. destruct Ia as [Ba Na]. destruct Ib as [Bb Nb].
      assert (Q0 : forall i, a <= i < b -> val i = false).
      { intros i Hx. rewrite <- Va. apply constant; [lia|lia|]. intros x Hx'. apply (between (start + 2 * j) a b); [exact Hi|exact Hk|lia]. }
      split; [lia|]. split; [|split].
      + apply val_speech; [lia|]. destruct (val (a - 1)); [reflexivity|congruence].
      + apply val_speech; [lia|]. rewrite (Q0 (b - 1)) in Nb by lia. destruct (val b); congruence.
      + intros i Hx. apply val_silence; [lia|now apply Q0].
  Qed.
End V.

Definition is_long (thr : Q) (a b : nat) : Prop := (thr <= inject_Z (Z.of_nat b - Z.of_nat a))%Q.
(** the loop: the first long pair from [idx] on, or IndexError *)
Lemma jump_spec ch thr fuel : forall idx, length ch < idx + fuel -> 0 < fuel ->
  (exists j a b, jump fuel ch thr idx = Ok (idx + 2 * j) /\ nth_error ch (idx + 2 * j) = Some a /\ nth_error ch (S (idx + 2 * j)) = Some b /\ is_long thr a b /\
     forall j' a' b', j' < j -> nth_error ch (idx + 2 * j') = Some a' -> nth_error ch (S (idx + 2 * j')) = Some b' -> ~ is_long thr a' b') \/
  (jump fuel ch thr idx = Err IndexError /\
     forall j' a' b', nth_error ch (idx + 2 * j') = Some a' -> nth_error ch (S (idx + 2 * j')) = Some b' -> ~ is_long thr a' b').
Proof.
  induction fuel as [|f IH]; intros idx Hl Hf; [lia|]. cbn [jump]. unfold get. rewrite Nat.add_1_r.
  destruct (nth_error ch idx) as [a|] eqn:Ha.
  2:{ right. split; [reflexivity|]. intros j' a' b' H _. apply nth_error_None in Ha. assert (idx + 2 * j' < length ch) by (apply nth_error_Some; congruence). lia. }
  cbn [bind]. destruct (nth_error ch (S idx)) as [b|] eqn:Hb.
  2:{ right. split; [reflexivity|]. intros j' a' b' _ H. apply nth_error_None in Hb. assert (S (idx + 2 * j') < length ch) by (apply nth_error_Some; congruence). lia. }
  cbn [bind]. destruct (Qlt_le_dec _ _) as [L|L].
  - assert (Lc : S idx < length ch) by (apply nth_error_Some; congruence).
    destruct (IH (idx + 2)) as [(j & a' & b' & E & H1 & H2 & H3 & H4)|[E H4]]; [lia|lia| |].
    + left. exists (S j), a', b'. replace (idx + 2 * S j) with (idx + 2 + 2 * j) by lia. split; [exact E|]. split; [exact H1|]. split; [exact H2|]. split; [exact H3|].
      intros j' a2 b2 Hj K1 K2. destruct j' as [|j']; [|apply (H4 j'); [lia|now replace (idx + 2 + 2 * j') with (idx + 2 * S j') by lia|now replace (idx + 2 + 2 * j') with (idx + 2 * S j') by lia]].
      replace (idx + 2 * 0) with idx in * by lia. assert (a2 = a) by congruence. assert (b2 = b) by congruence. subst. unfold is_long. lra.
    + right. split; [exact E|]. intros j' a2 b2 K1 K2. destruct j' as [|j']; [|apply (H4 j'); now replace (idx + 2 + 2 * j') with (idx + 2 * S j') by lia].
      replace (idx + 2 * 0) with idx in * by lia. assert (a2 = a) by congruence. assert (b2 = b) by congruence. subst. unfold is_long. lra.
  - left. exists 0, a, b. replace (idx + 2 * 0) with idx by lia. split; [reflexivity|]. split; [exact Ha|]. split; [exact Hb|]. split; [exact L|]. intros; lia.
Qed.

(** the pair found is the pause that separates the first two utterances *)
Lemma separated v fs d : let ch := changes v in
  (exists j a b, jump (S (length ch)) ch (d * fs) (start v) = Ok j /\ nth_error ch j = Some a /\ nth_error ch (S j) = Some b /\ separates v fs d a b) \/
  (jump (S (length ch)) ch (d * fs) (start v) = Err IndexError /\ forall a b, pause v a b -> ~ lasts fs d a b).
Proof.
  intros ch. destruct (jump_spec ch (d * fs) (S (length ch)) (start v) ltac:(lia) ltac:(lia)) as [(j & a & b & E & H1 & H2 & H3 & H4)|[E H4]].
  - left. exists (start v + 2 * j), a, b. split; [exact E|]. split; [exact H1|]. split; [exact H2|]. split; [apply pause_changes; now exists j|]. split; [exact H3|].
    intros a' b' P L. apply pause_changes in P. destruct P as (j' & K1 & K2). apply (H4 j'); [|exact K1|exact K2]. pose proof (sorted_inv v _ _ _ _ K1 H1 L). lia.
  - right. split; [exact E|]. intros a b P. apply pause_changes in P. destruct P as (j & K1 & K2). exact (H4 j a b K1 K2).
Qed.
Lemma separates_unique v fs d a b a' b' : separates v fs d a b -> separates v fs d a' b' -> a = a' /\ b = b'.
Proof.
  intros (P & L & F) (P' & L' & F'). assert (a = a').
  { destruct (Nat.lt_trichotomy a a') as [H|[H|H]]; [exfalso; exact (F' a b P H L)|exact H|exfalso; exact (F a' b' P' H L')]. }
  subst a'. split; [reflexivity|]. destruct P as (B & _ & S1 & Q1), P' as (B' & _ & S2 & Q2). destruct (Nat.lt_trichotomy b b') as [H|[H|H]]; [exfalso|exact H|exfalso].
  - specialize (Q2 b ltac:(lia)). unfold silence, speech in *. congruence.
  - specialize (Q1 b' ltac:(lia)). unfold silence, speech in *. congruence.
Qed.

Lemma first_found v : 2 <= length v ->
  (nth 0 v false = true /\ first_speech v 0) \/
  (nth 0 v false = false /\ ((exists a, nth_error (changes v) 0 = Some a /\ first_speech v a) \/ (nth_error (changes v) 0 = None /\ forall i, ~ speech v i))).
Proof.
  intros L. destruct (nth 0 v false) eqn:V0; [left|right]; (split; [reflexivity|]).
  - split; [apply val_speech; [lia|exact V0]|intros; lia].
  - destruct (nth_error (changes v) 0) as [a|] eqn:Ha; [left|right].
    + exists a. split; [reflexivity|]. pose proof (nth_error_In _ _ Ha) as I. apply changes_In in I. destruct I as [B _]. assert (E : nth a v false = xorb (nth 0 v false) (Nat.even 0)) by exact (alternate v 0 a Ha). rewrite V0 in E. cbn in E.
      split; [apply val_speech; [lia|exact E]|]. intros j Hj. apply val_silence; [lia|]. transitivity (nth 0 v false); [|exact V0]. apply constant; [lia|lia|]. intros x Hx. apply (before_first v a); [exact Ha|lia].
    + split; [reflexivity|]. intros i Hi. pose proof (speech_lt v i Hi) as Li. apply val_speech in Hi; [|exact Li]. rewrite (constant v 0 i) in Hi; [congruence|lia|exact Li|].
      intros x _ I. destruct (changes v); [destruct I|discriminate].
Qed.

Lemma floor_seconds i fs : (0 < fs)%Q -> Qfloor (seconds i fs * fs) = Z.of_nat i.
Proof.
  intros H. assert (E : (seconds i fs * fs == inject_Z (Z.of_nat i))%Q). { unfold seconds. field. lra. }
  rewrite (Qfloor_comp _ _ E). apply Qfloor_Z.
Qed.
Lemma floor_plus z q : Qfloor (inject_Z z + q) = (z + Qfloor q)%Z.
Proof.
  pose proof (Qfloor_le q) as A. pose proof (Qlt_floor q) as B. pose proof (Qfloor_le (inject_Z z + q)) as C. pose proof (Qlt_floor (inject_Z z + q)) as D.
  rewrite !inject_Z_plus in *. assert (E1 : (inject_Z (z + Qfloor q) < inject_Z (Qfloor (inject_Z z + q) + 1))%Q) by (rewrite !inject_Z_plus; lra).
  assert (E2 : (inject_Z (Qfloor (inject_Z z + q)) < inject_Z (z + Qfloor q + 1))%Q) by (rewrite !inject_Z_plus; lra). rewrite <- Zlt_Qlt in E1, E2. lia.
Qed.
Lemma floor_seconds_plus i x fs : (0 < fs)%Q -> Qfloor ((seconds i fs + x) * fs) = (Z.of_nat i + Qfloor (x * fs))%Z.
Proof.
  intros H. rewrite <- floor_plus. apply Qfloor_comp. unfold seconds. field. lra.
Qed.
Lemma one_run x y z i : speech (repeat false x ++ repeat true y ++ repeat false z) i <-> x <= i < x + y.
Proof.
  unfold speech. destruct (Nat.lt_ge_cases i x) as [H|H].
  - rewrite nth_error_app1 by (now rewrite repeat_length). rewrite nth_error_repeat by exact H. split; [discriminate|lia].
  - rewrite nth_error_app2 by (now rewrite repeat_length). rewrite repeat_length. destruct (Nat.lt_ge_cases (i - x) y) as [H2|H2].
    + rewrite nth_error_app1 by (now rewrite repeat_length). rewrite nth_error_repeat by exact H2. split; [lia|reflexivity].
    + rewrite nth_error_app2 by (now rewrite repeat_length). rewrite repeat_length. split; [|lia]. intros E. apply nth_error_In, repeat_spec in E. discriminate.
Qed.
