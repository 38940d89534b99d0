(** Proofs about key times and the reference microphone. *)
From Verif Require Import Base BaseFacts SigGen SigGenSpec SigGenFacts.
From Coq Require Import QArith.
Open Scope nat_scope.

(** ** The list of changes *)
Fixpoint ch (prev : bool) (pos : nat) (l : list bool) : list nat :=
  match l with [] => [] | x :: l' => if xorb x prev then pos :: ch x (S pos) l' else ch x (S pos) l' end.

Lemma ch_filter l : forall pre prev,
  filter (fun i => xorb (vad_at (pre ++ prev :: l) i) (vad_at (pre ++ prev :: l) (i - 1))) (seq (S (length pre)) (length l)) = ch prev (S (length pre)) l.
Proof.
  induction l as [|x l IH]; intros pre prev; [reflexivity|]. cbn [List.length seq filter ch].
  assert (E1 : vad_at (pre ++ prev :: x :: l) (S (length pre)) = x).
  { unfold vad_at. rewrite app_nth2 by lia. replace (S (length pre) - length pre) with 1 by lia. reflexivity. }
  assert (E2 : vad_at (pre ++ prev :: x :: l) (S (length pre) - 1) = prev).
  { unfold vad_at. rewrite app_nth2 by lia. replace (S (length pre) - 1 - length pre) with 0 by lia. reflexivity. }
  rewrite E1, E2. specialize (IH (pre ++ [prev]) x). rewrite app_length in IH. cbn [List.length] in IH. replace (length pre + 1) with (S (length pre)) in IH by lia.
  rewrite <- app_assoc in IH. cbn [app] in IH. rewrite IH. reflexivity.
Qed.
Lemma changes_ch v l : vad_changes (v :: l) = ch v 1 l.
Proof. unfold vad_changes. cbn [List.length]. replace (S (length l) - 1) with (length l) by lia. apply (ch_filter l [] v). Qed.

(** Value at [i] of the sequence [l] starting at [pos], preceded by [prev]. *)
Definition at_ (prev : bool) (pos : nat) (l : list bool) (i : nat) : bool := if Nat.ltb i pos then prev else nth (i - pos) l false.

(** Everything about [ch] in one induction, on element number [m]. *)
Lemma ch_facts l : forall prev pos, 
  (forall m i, nth_error (ch prev pos l) m = Some i ->
     pos <= i < pos + length l /\ nth (i - pos) l false = (if Nat.even m then negb prev else prev) /\
     (m = 0 -> forall k, pos <= k < i -> nth (k - pos) l false = prev) /\
     (forall j, nth_error (ch prev pos l) (S m) = Some j -> i < j /\ forall k, i <= k < j -> nth (k - pos) l false = nth (i - pos) l false) /\
     (nth_error (ch prev pos l) (S m) = None -> forall k, i <= k < pos + length l -> nth (k - pos) l false = nth (i - pos) l false)) /\
  (nth_error (ch prev pos l) 0 = None -> forall k, pos <= k < pos + length l -> nth (k - pos) l false = prev).
Proof.
  induction l as [|x l IH]; intros prev pos; cbn [ch].
  - split; [intros [|m] i H; discriminate|]. intros _ k Hk. cbn in Hk. lia.
  - destruct (IH x (S pos)) as [IH1 IH2]. clear IH.
    assert (S_ : forall k, S pos <= k -> nth (k - pos) (x :: l) false = nth (k - S pos) l false).
    { intros k Hk. replace (k - pos) with (S (k - S pos)) by lia. reflexivity. }
    destruct (xorb x prev) eqn:Ex.
    + assert (Ex' : x = negb prev) by (destruct x, prev; cbn in *; congruence).
      split; [|cbn; discriminate].
      intros [|m] i H.
      * cbn in H. injection H as <-. rewrite Nat.sub_diag. change (nth 0 (x :: l) false) with x. split; [cbn [List.length]; lia|]. split; [exact Ex'|]. split; [intros _ k Hk; lia|]. split.
        -- intros j Hj. cbn [nth_error] in Hj. destruct (IH1 0 j Hj) as (H1 & _ & H2 & _). split; [lia|]. intros k Hk.
           destruct (Nat.eq_dec k pos) as [->|]; [rewrite Nat.sub_diag; reflexivity|]. rewrite S_ by lia. apply H2; [reflexivity|lia].
        -- intros Hn k Hk. cbn [nth_error] in Hn. cbn [List.length] in Hk. destruct (Nat.eq_dec k pos) as [->|]; [rewrite Nat.sub_diag; reflexivity|]. rewrite S_ by lia. apply IH2; [exact Hn|lia].
      * cbn [nth_error] in H. destruct (IH1 m i H) as (H1 & H2 & H3 & H4 & H5). cbn [List.length]. split; [lia|]. rewrite (S_ i) by lia. split.
        { rewrite H2, Ex'. rewrite Nat.even_succ, <- Nat.negb_even. destruct (Nat.even m), prev; reflexivity. }
        split; [discriminate|]. split.
        -- intros j Hj. cbn [nth_error] in Hj. destruct (H4 j Hj) as [H6 H7]. split; [exact H6|]. intros k Hk. rewrite S_ by lia. apply H7. exact Hk.
        -- intros Hn k Hk. cbn [nth_error] in Hn. cbn [List.length] in Hk. rewrite S_ by lia. apply H5; [exact Hn|lia].
    + assert (Ex' : x = prev) by (destruct x, prev; cbn in *; congruence). subst x. split.
      * intros m i H. destruct (IH1 m i H) as (H1 & H2 & H3 & H4 & H5). cbn [List.length]. split; [lia|]. rewrite (S_ i) by lia. split; [exact H2|]. split; [|split].
        -- intros Hm k Hk. destruct (Nat.eq_dec k pos) as [->|]; [rewrite Nat.sub_diag; reflexivity|]. rewrite S_ by lia. apply H3; [exact Hm|lia].
        -- intros j Hj. destruct (H4 j Hj) as [H6 H7]. split; [exact H6|]. intros k Hk. rewrite S_ by lia. apply H7. exact Hk.
        -- intros Hn k Hk. cbn [List.length] in Hk. rewrite S_ by lia. apply H5; [exact Hn|lia].
      * intros Hn k Hk. cbn [List.length] in Hk. destruct (Nat.eq_dec k pos) as [->|]; [rewrite Nat.sub_diag; reflexivity|]. rewrite S_ by lia. apply IH2; [exact Hn|lia].
Qed.

Section Key.
Variables (v : bool) (l : list bool) (thr : Q).
Let vad := v :: l.
Let c := vad_changes vad.
Let i0 := if v then 0 else 1.

Lemma chg_range m i : nth_error c m = Some i -> 1 <= i < length vad.
Proof. unfold c, vad. rewrite (changes_ch v l). intros H. destruct (ch_facts l v 1) as [F _]. destruct (F m i H) as (H1 & _). unfold vad. cbn [List.length]. lia. Qed.
Lemma nth_vad i : 1 <= i -> nth i vad false = nth (i - 1) l false.
Proof. intros H. destruct i as [|i]; [lia|]. cbn. rewrite Nat.sub_0_r. reflexivity. Qed.
Lemma chg_value m i : nth_error c m = Some i -> nth i vad false = (if Nat.even m then negb v else v).
Proof.
  unfold c, vad. rewrite (changes_ch v l). intros H. destruct (ch_facts l v 1) as [F _]. destruct (F m i H) as (H1 & H2 & _). rewrite nth_vad by lia. exact H2.
Qed.
Lemma chg_next m i j : nth_error c m = Some i -> nth_error c (S m) = Some j -> i < j /\ forall k, i <= k < j -> nth k vad false = nth i vad false.
Proof.
  unfold c, vad. rewrite (changes_ch v l). intros H Hj. destruct (ch_facts l v 1) as [F _]. destruct (F m i H) as (H1 & _ & _ & H2 & _). destruct (H2 j Hj) as [H3 H4].
  split; [exact H3|]. intros k Hk. rewrite !nth_vad by lia. apply H4. exact Hk.
Qed.
Lemma chg_last m i : nth_error c m = Some i -> nth_error c (S m) = None -> forall k, i <= k < length vad -> nth k vad false = nth i vad false.
Proof.
  unfold c, vad. rewrite (changes_ch v l). intros H Hj k Hk. destruct (ch_facts l v 1) as [F _]. destruct (F m i H) as (H1 & _ & _ & _ & H2).
  rewrite !nth_vad by lia. apply H2; [exact Hj|]. unfold vad in Hk. cbn in Hk. lia.
Qed.
Lemma chg_in i : 1 <= i < length vad -> nth i vad false <> nth (i - 1) vad false -> exists m, nth_error c m = Some i.
Proof.
  intros Hi Hd. apply In_nth_error. unfold c, vad_changes. apply filter_In. split; [apply in_seq; lia|]. unfold vad_at.
  destruct (nth i vad false), (nth (i - 1) vad false); try reflexivity; congruence.
Qed.
Lemma chg_prev m i : nth_error c m = Some i -> nth (i - 1) vad false = negb (nth i vad false).
Proof.
  intros H. apply nth_error_In in H. unfold c, vad_changes in H. apply filter_In in H. destruct H as [_ H]. unfold vad_at in H.
  destruct (nth i vad false), (nth (i - 1) vad false); cbn in *; congruence.
Qed.

(** utterance ends correspond to consecutive changes of the right parity *)
Lemma ends_iff i j : ends_utterance thr vad i j <->
  exists m, nth_error c (i0 + 2 * m) = Some i /\ nth_error c (S (i0 + 2 * m)) = Some j /\ (thr <= inject_Z (Z.of_nat j - Z.of_nat i))%Q.
Proof.
  split.
  - intros (H1 & H2 & H3 & H4 & H5 & H6). assert (Hi : nth i vad false = false) by (apply H4; lia).
    destruct (chg_in i ltac:(lia)) as [m Hm]; [rewrite Hi, H3; discriminate|].
    assert (Hpar : exists k, m = i0 + 2 * k).
    { assert (Hv := chg_value m i Hm). rewrite Hi in Hv. unfold i0. destruct v.
      - destruct (Nat.even m) eqn:E; [|discriminate]. apply Nat.even_spec in E. destruct E as [k ->]. exists k. lia.
      - destruct (Nat.even m) eqn:E; [discriminate|]. rewrite <- Nat.negb_odd in E. apply negb_false_iff in E. apply Nat.odd_spec in E. destruct E as [k ->]. exists k. lia. }
    destruct Hpar as [k ->]. exists k. split; [exact Hm|]. split; [|exact H6].
    destruct (nth_error c (S (i0 + 2 * k))) as [j'|] eqn:Ej.
    + f_equal. destruct (chg_next _ _ _ Hm Ej) as [Hlt Hc]. assert (Hp := chg_prev _ _ Ej). rewrite Hc in Hp by lia. rewrite Hi in Hp.
      destruct (lt_eq_lt_dec j' j) as [[Hl|He]|Hl]; [|exact He|].
      * rewrite H4 in Hp by lia. discriminate.
      * rewrite Hc in H5 by lia. congruence.
    + exfalso. assert (H := chg_last _ _ Hm Ej j ltac:(lia)). congruence.
  - intros (m & Hi & Hj & Ht). destruct (chg_next _ _ _ Hi Hj) as [Hlt Hc]. assert (R1 := chg_range _ _ Hi). assert (R2 := chg_range _ _ Hj).
    assert (Hv : nth i vad false = false).
    { rewrite (chg_value _ _ Hi). unfold i0. destruct v.
      - replace (Nat.even (0 + 2 * m)) with true; [reflexivity|]. symmetry. apply Nat.even_spec. exists m. lia.
      - replace (Nat.even (1 + 2 * m)) with false; [reflexivity|]. symmetry. rewrite <- Nat.negb_odd. apply negb_false_iff. apply Nat.odd_spec. exists m. lia. }
    unfold ends_utterance. split; [lia|]. split; [lia|]. split; [rewrite (chg_prev _ _ Hi), Hv; reflexivity|]. split; [intros k Hk; rewrite Hc by lia; exact Hv|].
    split; [|exact Ht]. assert (Hp := chg_prev _ _ Hj). rewrite Hc in Hp by lia. rewrite Hv in Hp. destruct (nth j vad false); [reflexivity | discriminate].
Qed.

Lemma chg_sorted m m' i i' : m <= m' -> nth_error c m = Some i -> nth_error c m' = Some i' -> i <= i'.
Proof.
  intros Hm. revert i'. induction Hm as [|m' Hm IH]; intros i' Hi Hi'; [replace i' with i by congruence; lia|].
  destruct (nth_error c m') as [i''|] eqn:E.
  - specialize (IH i'' Hi eq_refl). destruct (chg_next _ _ _ E Hi'). lia.
  - exfalso. apply nth_error_None in E. assert (S m' < length c) by (apply nth_error_Some; congruence). lia.
Qed.

Definition long (m : nat) : Prop := exists a b, nth_error c m = Some a /\ nth_error c (S m) = Some b /\ (thr <= inject_Z (Z.of_nat b - Z.of_nat a))%Q.
Lemma jump_spec fuel : forall idx, length c <= fuel + idx ->
  (exists k, jump fuel thr c idx = Ok (idx + 2 * k) /\ long (idx + 2 * k) /\ forall k', k' < k -> ~ long (idx + 2 * k')) \/
  (jump fuel thr c idx = Err IndexError /\ forall k, ~ long (idx + 2 * k)).
Proof.
  induction fuel as [|f IH]; intros idx Hf; cbn [jump]; unfold get.
  - destruct (nth_error c idx) as [a|] eqn:Ea; cbn [bind]; [exfalso; assert (idx < length c) by (apply nth_error_Some; congruence); lia|].
    right. split; [reflexivity|]. intros k (a & b & H & _). assert (idx + 2 * k < length c) by (apply nth_error_Some; congruence). lia.
  - destruct (nth_error c idx) as [a|] eqn:Ea; cbn [bind].
    2:{ right. split; [reflexivity|]. intros k (a & b & H & _). assert (idx + 2 * k < length c) by (apply nth_error_Some; congruence). apply nth_error_None in Ea. lia. }
    replace (idx + 1) with (S idx) by lia. destruct (nth_error c (S idx)) as [b|] eqn:Eb; cbn [bind].
    2:{ right. split; [reflexivity|]. intros k (a' & b' & _ & H & _). assert (S (idx + 2 * k) < length c) by (apply nth_error_Some; congruence). apply nth_error_None in Eb. lia. }
    destruct (Qle_bool thr (inject_Z (Z.of_nat b - Z.of_nat a))) eqn:E; cbn [negb].
    + left. exists 0. replace (idx + 2 * 0) with idx by lia. split; [reflexivity|]. split; [exists a, b; split; [exact Ea|]; split; [exact Eb|]; apply Qle_bool_iff; exact E | intros; lia].
    + assert (Hno : ~ long idx).
      { intros (a' & b' & H1 & H2 & H3). rewrite Ea in H1. rewrite Eb in H2. injection H1 as <-. injection H2 as <-. apply Qle_bool_iff in H3. congruence. }
      destruct (IH (idx + 2) ltac:(lia)) as [(k & H1 & H2 & H3)|[H1 H2]].
      * left. exists (S k). replace (idx + 2 * S k) with (idx + 2 + 2 * k) by lia. split; [exact H1|]. split; [exact H2|]. intros [|k'] Hk'; [rewrite Nat.mul_0_r, Nat.add_0_r; exact Hno|].
        replace (idx + 2 * S k') with (idx + 2 + 2 * k') by lia. apply H3. lia.
      * right. split; [exact H1|]. intros [|k']; [rewrite Nat.mul_0_r, Nat.add_0_r; exact Hno|]. replace (idx + 2 * S k') with (idx + 2 + 2 * k') by lia. apply H2.
Qed.

Lemma changes_length : length c <= length vad.
Proof. unfold c, vad_changes. rewrite <- (seq_length (length vad) 0) at 2. 
  assert (G : forall f s n, length (filter f (seq s n)) <= n).
  { intros f s n. revert s. induction n as [|n IHn]; intros s; cbn [seq filter]; [cbn; lia|]. destruct (f s); cbn [List.length]; specialize (IHn (S s)); lia. }
  rewrite seq_length. etransitivity; [apply G|]. lia.
Qed.

Lemma key_spec :
  (exists i j, end_1st thr vad = Ok i /\ beginning_2nd thr vad = Ok j /\ first_end thr vad i j) \/
  (end_1st thr vad = Err IndexError /\ beginning_2nd thr vad = Err IndexError /\ forall i j, ~ ends_utterance thr vad i j).
Proof.
  unfold end_1st, beginning_2nd. assert (E0 : first_idx vad = Ok i0) by reflexivity. rewrite E0. cbn [bind]. fold c.
  assert (HL := changes_length). destruct (jump_spec (length vad) i0 ltac:(lia)) as [(k & H1 & H2 & H3)|[H1 H2]].
  - left. destruct H2 as (a & b & Ha & Hb & Ht). exists a, b. rewrite H1. cbn [bind]. unfold get. rewrite Ha. replace (i0 + 2 * k + 1) with (S (i0 + 2 * k)) by lia. rewrite Hb.
    split; [reflexivity|]. split; [reflexivity|]. split; [apply ends_iff; exists k; auto|].
    intros i' j' H'. apply ends_iff in H'. destruct H' as (k' & Hi' & Hj' & Ht').
    destruct (le_lt_dec k k'); [apply (chg_sorted (i0 + 2 * k) (i0 + 2 * k')); [lia | exact Ha | exact Hi']|].
    exfalso. apply (H3 k' ltac:(lia)). exists i', j'. auto.
  - right. rewrite H1. cbn [bind]. split; [reflexivity|]. split; [reflexivity|]. intros i j H. apply ends_iff in H. destruct H as (k & Ha & Hb & Ht). apply (H2 k). exists i, j. auto.
Qed.

End Key.

Lemma beg_spec v l i : beginning_1st (v :: l) = Ok i <-> nth i (v :: l) false = true /\ forall k, k < i -> nth k (v :: l) false = false.
Proof.
  unfold beginning_1st, first_idx. cbn [bind]. destruct v; cbn [Nat.eqb].
  - split.
    + intros H. injection H as <-. split; [reflexivity | intros; lia].
    + intros [_ H]. destruct i as [|i]; [reflexivity|]. specialize (H 0 ltac:(lia)). discriminate.
  - replace (1 - 1) with 0 by lia. rewrite changes_ch. unfold get. destruct (ch_facts l false 1) as [F G].
    destruct (nth_error (ch false 1 l) 0) as [a|] eqn:E.
    + destruct (F 0 a E) as (R & V & B & _). cbn [Nat.even negb] in V.
      assert (P1 : nth a (false :: l) false = true) by (rewrite nth_vad by lia; exact V).
      assert (P2 : forall k, k < a -> nth k (false :: l) false = false).
      { intros [|k] Hk; [reflexivity|]. rewrite nth_vad by lia. apply B; [reflexivity | lia]. }
      split.
      * intros H. injection H as <-. auto.
      * intros [Q1 Q2]. f_equal. destruct (lt_eq_lt_dec a i) as [[H|H]|H]; [rewrite Q2 in P1 by exact H; discriminate | exact H | rewrite P2 in Q1 by exact H; discriminate].
    + split; [discriminate|]. intros [Q1 _]. exfalso. destruct i as [|i]; [discriminate|]. rewrite nth_vad in Q1 by lia.
      destruct (lt_dec i (length l)).
      * rewrite G in Q1; [discriminate | reflexivity | lia].
      * rewrite nth_overflow in Q1; [discriminate | lia].
Qed.

(** ** Reference microphone *)
Lemma first_where_spec p l : 
  match first_where p l with
  | Ok i => exists x, nth_error l i = Some x /\ p x = true /\ forall k y, k < i -> nth_error l k = Some y -> p y = false
  | Err e => e = IndexError /\ forall k y, nth_error l k = Some y -> p y = false
  end.
Proof.
  unfold first_where.
  assert (G : forall s, match filter (fun ix => p (snd ix)) (combine (seq s (length l)) l) with
    | [] => forall k y, nth_error l k = Some y -> p y = false
    | (i, _) :: _ => exists d x, i = s + d /\ nth_error l d = Some x /\ p x = true /\ forall k y, k < d -> nth_error l k = Some y -> p y = false end).
  { induction l as [|a l IH]; intros s; cbn [List.length seq combine filter snd].
    - intros [|k] y H; discriminate.
    - destruct (p a) eqn:Ea.
      + exists 0, a. split; [lia|]. split; [reflexivity|]. split; [exact Ea | intros; lia].
      + specialize (IH (S s)). destruct (filter _ _) as [|[i z] r].
        * intros [|k] y H; [injection H as <-; exact Ea | apply (IH k y H)].
        * destruct IH as (d & x & H1 & H2 & H3 & H4). exists (S d), x. split; [lia|]. split; [exact H2|]. split; [exact H3|].
          intros [|k] y Hk H; [injection H as <-; exact Ea | apply (H4 k y); [lia | exact H]]. }
  specialize (G 0). destruct (filter _ _) as [|[i z] r]; [split; [reflexivity | exact G]|].
  destruct G as (d & x & -> & H). exists x. exact H.
Qed.

(** The code computes the right index exactly when the first sensor of the node
    numbered like the microphone has that node's own number. *)
Lemma ref_mic_value ms mic : mic < length ms -> 0 < nth mic ms 0 ->
  ref_mic ms mic = Ok (before ms mic, (Z.of_nat mic - Z.of_nat (before ms (before ms mic)))%Z).
Proof.
  intros Hm Hp. unfold ref_mic. assert (H := first_where_spec (Nat.eqb mic) (sensor_map ms)). destruct (first_where _ _) as [i|e]; cbn [bind].
  - destruct H as (x & H1 & H2 & H3). apply Nat.eqb_eq in H2. subst x. apply sensor_map_spec in H1. destruct H1 as [H1 _].
    assert (E : i = before ms mic); [|subst i; reflexivity].
    destruct (Nat.eq_dec i (before ms mic)) as [E|E]; [exact E|]. exfalso.
    assert (F : nth_error (sensor_map ms) (before ms mic) = Some mic) by (apply sensor_map_spec; unfold belongs; lia).
    specialize (H3 (before ms mic) mic ltac:(lia) F). rewrite Nat.eqb_refl in H3. discriminate.
  - exfalso. destruct H as [_ H]. assert (F : nth_error (sensor_map ms) (before ms mic) = Some mic) by (apply sensor_map_spec; unfold belongs; lia).
    specialize (H _ _ F). rewrite Nat.eqb_refl in H. discriminate.
Qed.
Lemma ref_mic_none ms mic : length ms <= mic -> ref_mic ms mic = Err IndexError.
Proof.
  intros Hm. unfold ref_mic. assert (H := first_where_spec (Nat.eqb mic) (sensor_map ms)). destruct (first_where _ _) as [i|e]; cbn [bind].
  - exfalso. destruct H as (x & H1 & H2 & _). apply Nat.eqb_eq in H2. subst x. apply sensor_map_spec in H1. destruct H1. lia.
  - destruct H as [-> _]. reflexivity.
Qed.
Lemma before_ge ms : (forall k, k < length ms -> 0 < nth k ms 0) -> forall k, k <= length ms -> k <= before ms k.
Proof.
  induction ms as [|m ms IH]; intros H k Hk; [cbn in Hk; lia|]. destruct k as [|k]; [lia|]. unfold before in *. change (firstn (S k) (m :: ms)) with (m :: firstn k ms).
  change (list_sum (m :: firstn k ms)) with (m + list_sum (firstn k ms)). assert (0 < m) by (apply (H 0); cbn; lia).
  assert (G : forall k0, k0 < length ms -> 0 < nth k0 ms 0) by (intros k0 Hk0; apply (H (S k0)); cbn; lia). specialize (IH G k ltac:(cbn in Hk; lia)). lia.
Qed.
