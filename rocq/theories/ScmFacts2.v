(** Closed form of the correlation matrices. *)
From Verif Require Import Base BaseFacts Cx CxFacts Buffers BufFacts Filt FiltSpec FiltFacts Scm ScmSpec ScmFacts.
From Coq Require Import Reals Lra Permutation.
Local Open Scope R_scope.
Local Open Scope cx_scope.

Lemma weighted_nil beta r0 f i j : weighted beta r0 [] f i j = r0 f i j.
Proof. unfold weighted. cbn [length csum pow]. change (cr 1) with cone. ring. Qed.
Lemma weighted_snoc beta r0 ys y f i j :
  weighted beta r0 (ys ++ [y]) f i j = cr beta * weighted beta r0 ys f i j + cr (1 - beta) * corr y f i j.
Proof.
  unfold weighted. rewrite app_length. cbn [length]. rewrite Nat.add_1_r. cbn [csum pow].
  rewrite cr_mul. replace (S (length ys) - 1 - length ys)%nat with 0%nat by lia.
  rewrite (app_nth2 ys [y]) by lia. rewrite Nat.sub_diag. cbn [nth pow]. rewrite Rmult_1_r.
  rewrite (csum_ext _ _ (fun r => cr beta * (cr ((1 - beta) * beta ^ (length ys - 1 - r)) * corr (nth r ys no_frame) f i j))).
  - rewrite csum_scale. ring.
  - intros r Hr. rewrite app_nth1 by exact Hr. replace (S (length ys) - 1 - r)%nat with (S (length ys - 1 - r)) by lia.
    cbn [pow]. rewrite !cr_mul. ring.
Qed.
Lemma weights_total (beta : R) m : (beta ^ m + sum_n m (fun r => (1 - beta) * beta ^ (m - 1 - r)) = 1)%R.
Proof.
  induction m as [|m IH]; [cbn; lra|]. cbn [sum_n]. replace (S m - 1 - m)%nat with 0%nat by lia. cbn [pow].
  assert (A : forall k, (k <= m)%nat -> sum_n k (fun r => (1 - beta) * beta ^ (S m - 1 - r))%R = (beta * sum_n k (fun r => (1 - beta) * beta ^ (m - 1 - r)))%R).
  { induction k as [|k IHk]; intros Hk; [cbn; ring|]. cbn [sum_n]. rewrite IHk by lia.
    replace (S m - 1 - k)%nat with (S (m - 1 - k)) by lia. cbn [pow]. ring. }
  rewrite A by lia. replace (sum_n m (fun r => ((1 - beta) * beta ^ (m - 1 - r))%R)) with (1 - beta ^ m)%R by lra. ring.
Qed.

Section Run.
  Variables (beta : R) (valid : nat -> tens -> tens -> bool) (W : Type) (solve : nat -> tens -> tens -> W) (p : fparams).
  Notation run := (filt_run outer (avg beta) valid solve p).
  Notation step := (filt_step outer (avg beta) valid solve p).

  Lemma snoc_run us u n0 n' : run (us ++ [u]) n0 = Ok n' -> exists n, run us n0 = Ok n /\ step n u = Ok n'.
  Proof.
    unfold filt_run. rewrite foldM_app. intros H. destruct (foldM step us n0) as [n|] eqn:E; [|discriminate].
    exists n. split; [reflexivity|]. cbn in H. destruct (step n u); [exact H | discriminate].
  Qed.
  Lemma outer_corr y f i j : outer y f i j = corr y f i j.
  Proof. reflexivity. Qed.

  Lemma pick_snoc wh b us u : pick wh b (us ++ [u]) = pick wh b us ++ (if Bool.eqb (vad wh u) b then [frame wh u] else []).
  Proof.
    unfold pick. rewrite filter_app, map_app. f_equal. cbn [filter]. destruct (Bool.eqb (vad wh u) b); reflexivity.
  Qed.

  Lemma run_weighted us n0 n wh e0 : f_use1st p = false -> run us n0 = Ok n -> estimator wh n0 = Some e0 ->
    exists e, estimator wh n = Some e /\
      forall f i j, e_ryy e f i j = weighted beta (e_ryy e0) (pick wh true us) f i j /\
                    e_rnn e f i j = weighted beta (e_rnn e0) (pick wh false us) f i j.
  Proof.
    intros Hu. revert n. induction us as [|u us IH] using rev_ind; intros n Hr He.
    - injection Hr as <-. exists e0. split; [exact He|]. intros. unfold pick. cbn [filter map]. rewrite !weighted_nil. auto.
    - apply snoc_run in Hr. destruct Hr as (n1 & Hr & Hs). destruct (IH n1 Hr He) as (e1 & He1 & H1).
      destruct (matrices _ _ _ _ _ _ _ p n1 u n wh e1 Hs He1 (or_intror Hu)) as (e & He2 & Ht & Hf).
      exists e. split; [exact He2|]. intros f i j. rewrite !pick_snoc. destruct (H1 f i j) as [A B].
      rewrite Hu in Ht, Hf. cbn [andb] in Ht, Hf. destruct (vad wh u) eqn:Ev.
      + destruct (Ht eq_refl) as [-> ->]. cbn [Bool.eqb negb]. rewrite !app_nil_r. split; [|exact B].
        rewrite weighted_snoc. unfold avg. rewrite A. reflexivity.
      + destruct (Hf eq_refl) as [-> ->]. cbn [Bool.eqb negb]. rewrite !app_nil_r. split; [exact A|].
        rewrite weighted_snoc. unfold avg. rewrite B. reflexivity.
  Qed.

  Lemma basis_snoc r0 ys y f i j :
    basis beta r0 (ys ++ [y]) f i j = if Nat.eqb (length ys) 0 then corr y f i j else cr beta * basis beta r0 ys f i j + cr (1 - beta) * corr y f i j.
  Proof.
    destruct ys as [|z ys]; cbn [app basis length Nat.eqb]; [apply weighted_nil | apply weighted_snoc].
  Qed.
  Lemma pick_len wh us : wh <> Centr -> length (pick wh true us) = speech_frames us /\ length (pick wh false us) = noise_frames us.
  Proof.
    intros Hw. unfold pick, speech_frames, noise_frames. rewrite !map_length.
    split; f_equal; apply filter_ext; intros u; replace (vad wh u) with (u_vad u) by (destruct wh; try reflexivity; congruence); destruct (u_vad u); reflexivity.
  Qed.

  Lemma run_basis us n0 n wh e0 : f_use1st p = true -> wh <> Centr -> fresh n0 -> run us n0 = Ok n -> estimator wh n0 = Some e0 ->
    exists e, estimator wh n = Some e /\
      forall f i j, e_ryy e f i j = basis beta (e_ryy e0) (pick wh true us) f i j /\
                    e_rnn e f i j = basis beta (e_rnn e0) (pick wh false us) f i j.
  Proof.
    intros Hu Hw (F1 & F2 & F3 & _). revert n. induction us as [|u us IH] using rev_ind; intros n Hr He.
    - injection Hr as <-. exists e0. split; [exact He|]. intros. split; reflexivity.
    - apply snoc_run in Hr. destruct Hr as (n1 & Hr & Hs). destruct (IH n1 Hr He) as (e1 & He1 & H1).
      destruct (matrices _ _ _ _ _ _ _ p n1 u n wh e1 Hs He1 (or_introl Hw)) as (e & He2 & Ht & Hf).
      assert (C := run_counts _ _ _ _ _ _ _ p us n0 n1 Hr). rewrite F1, F2, F3 in C.
      destruct (pick_len wh us Hw) as [L1 L2].
      exists e. split; [exact He2|]. intros f i j. rewrite !pick_snoc. destruct (H1 f i j) as [A B].
      rewrite Hu in Ht, Hf. cbn [andb] in Ht, Hf. destruct (vad wh u) eqn:Ev.
      + destruct (Ht eq_refl) as [-> ->]. cbn [Bool.eqb negb]. rewrite !app_nil_r. split; [|exact B].
        rewrite basis_snoc, L1. replace (fn_yy n1) with (speech_frames us) by lia. destruct (Nat.eqb (speech_frames us) 0); [reflexivity|].
        unfold avg. rewrite A. reflexivity.
      + destruct (Hf eq_refl) as [-> ->]. cbn [Bool.eqb negb]. rewrite !app_nil_r. split; [exact A|].
        rewrite basis_snoc, L2. replace (fn_nn n1) with (noise_frames us) by lia. destruct (Nat.eqb (noise_frames us) 0); [reflexivity|].
        unfold avg. rewrite B. reflexivity.
  Qed.
End Run.

(** ** Batch *)
Lemma csum_select b vad ys (g : (nat -> nat -> cx) -> cx) : length vad = length ys ->
  csum (length (select b vad ys)) (fun t => g (nth t (select b vad ys) (fun _ _ => czero))) =
  csum (length ys) (fun t => if Bool.eqb (nth t vad (negb b)) b then g (nth t ys (fun _ _ => czero)) else czero).
Proof.
  revert ys. induction vad as [|v vad IH]; intros [|y ys] H; try discriminate; [reflexivity|].
  injection H as H. unfold select in *. cbn [combine filter fst]. cbn [length]. rewrite (csum_S_l (length ys)). cbn [nth].
  rewrite <- (IH ys H). destruct (Bool.eqb v b); cbn [map length snd].
  - rewrite csum_S_l. cbn [nth]. reflexivity.
  - ring.
Qed.
Lemma len_select b vad ys : length vad = length ys -> length (select b vad ys) = count_occ Bool.bool_dec vad b.
Proof.
  revert ys. induction vad as [|v vad IH]; intros [|y ys] H; try discriminate; [reflexivity|].
  injection H as H. unfold select in *. cbn [combine filter fst count_occ]. destruct (Bool.bool_dec v b) as [->|N].
  - rewrite Bool.eqb_reflx. cbn [map length]. rewrite (IH ys H). reflexivity.
  - apply Bool.eqb_false_iff in N. rewrite N. apply IH. exact H.
Qed.
Lemma mean_outer_sum b vad ys : length vad = length ys ->
  match mean_outer (select b vad ys) with
  | None => count_occ Bool.bool_dec vad b = 0%nat
  | Some r => (0 < count_occ Bool.bool_dec vad b)%nat /\ forall f i j, cr (INR (count_occ Bool.bool_dec vad b)) * r f i j =
      csum (length ys) (fun t => if Bool.eqb (nth t vad (negb b)) b then nth t ys (fun _ _ => czero) f i * conj (nth t ys (fun _ _ => czero) f j) else czero)
  end.
Proof.
  intros H. rewrite <- (len_select b vad ys H). assert (S := fun f i j => csum_select b vad ys (fun y => y f i * conj (y f j)) H).
  destruct (select b vad ys) as [|y l] eqn:E; [reflexivity|]. unfold mean_outer. split; [cbn; lia|].
  intros f i j. rewrite <- S. transitivity (cr (INR (length (y :: l)) * / INR (length (y :: l))) * csum (length (y :: l)) (fun t => nth t (y :: l) (fun _ _ => czero) f i * conj (nth t (y :: l) (fun _ _ => czero) f j))).
  - rewrite cr_mul. ring.
  - rewrite Rinv_r; [change (cr 1) with cone; ring|]. apply not_0_INR. cbn. lia.
Qed.
Lemma nth_firstn_lt {A} k (l : list A) t d : (t < k)%nat -> nth t (firstn k l) d = nth t l d.
Proof. revert k t. induction l as [|a l IH]; intros [|k] [|t] H; try lia; try reflexivity. apply IH. lia. Qed.
