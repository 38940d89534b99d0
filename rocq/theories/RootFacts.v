From Verif Require Import Base BaseFacts Eval EvalSpec EvalFacts Root RootSpec.
From Coq Require Import Reals Lra.
Local Open Scope R_scope.

Lemma argmax_lt l : forall best v i, (best < i)%nat -> (argmax_from best v i l < i + length l)%nat.
Proof.
  induction l as [|x l IH]; intros best v i H; cbn [argmax_from length]; [lia|]. destruct (above x v).
  - specialize (IH i x (S i) ltac:(lia)). lia.
  - specialize (IH best v (S i) ltac:(lia)). lia.
Qed.
Lemma root_exists m nodes r : set_tree_root false m nodes = Ok (Some r) -> (r < length nodes)%nat /\ (forall u, m = UserDefined u -> u = Some r).
Proof.
  unfold set_tree_root. destruct m as [|[u|]|]; intros H; try discriminate.
  - apply bind_ok in H. destruct H as (snrs & E & H). apply bind_ok in H. destruct H as (i & A & H). injection H as ->. split; [|discriminate].
    apply mapM_length in E. rewrite <- E. destruct snrs as [|x l]; [discriminate|]. injection A as <-. pose proof (argmax_lt l 0 x 1 ltac:(lia)). cbn [length]. lia.
  - apply bind_ok in H. destruct H as (x & E & H). injection H as ->. split; [|intros u' Hu; congruence]. unfold get in E. apply nth_error_Some. destruct (nth_error nodes r); [discriminate|discriminate].
Qed.

Definition atleast (a b : xreal) : Prop := (* a >= b, no nan *)
  match a, b with Fin x, Fin y => y <= x | PInf, _ => True | Fin _, MInf => True | MInf, MInf => True | _, _ => False end.
Lemma atleast_refl a : a <> NaN -> atleast a a.
Proof. destruct a; cbn; try congruence; lra. Qed.
Lemma above_atleast a b : a <> NaN -> b <> NaN -> if above a b then atleast a b else atleast b a.
Proof. destruct a, b; cbn; try congruence; try tauto. destruct (Rlt_dec _ _); cbn; lra. Qed.
Lemma atleast_trans a b c : atleast a b -> atleast b c -> atleast a c.
Proof. destruct a, b, c; cbn; try tauto; lra. Qed.
Lemma argmax_max l : forall pre best v, nth_error (pre ++ l) best = Some v -> (forall x, In x (pre ++ l) -> x <> NaN) -> (forall x, In x pre -> atleast v x) ->
  exists w, nth_error (pre ++ l) (argmax_from best v (length pre) l) = Some w /\ forall x, In x (pre ++ l) -> atleast w x.
Proof.
  induction l as [|x l IH]; intros pre best v Hb HN Hp; cbn [argmax_from].
  - exists v. split; [exact Hb|]. rewrite app_nil_r. exact Hp.
  - assert (E : pre ++ x :: l = (pre ++ [x]) ++ l) by (now rewrite <- app_assoc). assert (Nx : x <> NaN) by (apply HN; apply in_app_iff; right; now left).
    assert (Nv : v <> NaN) by (apply HN; now apply nth_error_In in Hb). pose proof (above_atleast x v Nx Nv) as A. replace (S (length pre)) with (length (pre ++ [x])) by (rewrite app_length; cbn; lia).
    destruct (above x v).
    + rewrite E in *. apply IH; [|exact HN|].
      * rewrite <- app_assoc. rewrite nth_error_app2 by lia. now rewrite Nat.sub_diag.
      * intros y Hy. apply in_app_iff in Hy. destruct Hy as [Hy|[<-|[]]]; [|now apply atleast_refl]. apply atleast_trans with v; [exact A|now apply Hp].
    + rewrite E in *. apply IH; [exact Hb|exact HN|]. intros y Hy. apply in_app_iff in Hy. destruct Hy as [Hy|[<-|[]]]; [now apply Hp|exact A].
Qed.
Lemma largest_measure nodes r : set_tree_root false Snr nodes = Ok (Some r) ->
  exists snrs, mapM (fun nd => root_snr (fst nd) (snd nd)) nodes = Ok snrs /\
    forall k x, nth_error snrs k = Some (Fin x) -> (forall i, nth_error snrs i <> Some NaN) ->
      match nth_error snrs r with Some (Fin y) => x <= y | Some PInf => True | _ => False end.
Proof.
  unfold set_tree_root. intros H. apply bind_ok in H. destruct H as (snrs & E & H). exists snrs. split; [exact E|]. apply bind_ok in H. destruct H as (i & A & H). injection H as ->.
  intros k x Hk HN. destruct snrs as [|s l]; [discriminate|]. injection A as <-. destruct (argmax_max l [s] 0 s) as (w & Ew & Hw); [reflexivity| |intros y [<-|[]]|].
  - intros y Hy ->. apply In_nth_error in Hy. destruct Hy as (j & Hj). exact (HN j Hj).
  - apply atleast_refl. intros ->. exact (HN 0%nat eq_refl).
  - cbn [app length] in Ew. rewrite Ew. specialize (Hw (Fin x) (nth_error_In _ _ Hk)). destruct w; cbn in Hw; tauto || exact Hw.
Qed.

Lemma energy_cons x l : energy (x :: l) = x * x + energy l.
Proof. reflexivity. Qed.
Lemma energy_parts d : forall vad, length d = length vad -> energy d = energy (part true d vad) + energy (part false d vad).
Proof.
  induction d as [|x d IH]; intros vad L; destruct vad as [|b vad]; try discriminate; [unfold energy, part, rsum; cbn; ring|].
  rewrite energy_cons, (IH vad) by (now injection L). unfold part. destruct b; cbn [combine filter snd Bool.eqb map fst]; rewrite energy_cons; ring.
Qed.
Lemma part_masked d vad : length d = length vad -> masked vad d = Ok (part true d vad).
Proof.
  intros L. unfold masked, part. rewrite L, Nat.eqb_refl. do 2 f_equal. apply filter_ext. intros [x b]. cbn. now destruct b.
Qed.
Lemma part_length d : forall d' vad, length d = length vad -> length d' = length vad -> length (part true d vad) = length (part true d' vad).
Proof.
  induction d as [|x d IH]; intros d' vad L L'; destruct vad as [|b vad], d' as [|x' d']; try discriminate; [reflexivity|]. specialize (IH d' vad ltac:(now injection L) ltac:(now injection L')).
  unfold part in *. destruct b; cbn [combine filter snd Bool.eqb map fst length]; [now rewrite IH|exact IH].
Qed.
Lemma root_snr_value d vad : length d = length vad -> 0 < energy (part true d vad) ->
  root_snr d vad = Ok (Fin (10 * log10 (energy d / INR (length d) / (energy (part true d vad) / INR (length (part true d vad)))))).
Proof.
  intros L P. unfold root_snr. rewrite (part_masked d vad L). cbn [bind]. assert (Np : part true d vad <> []) by (intros E; rewrite E in P; unfold energy, rsum in P; cbn in P; lra).
  assert (Nd : d <> []) by (intros ->; apply Np; reflexivity). rewrite !mean_squares by assumption. pose proof (INR_len _ Np). pose proof (INR_len _ Nd). pose proof (energy_pos (part false d vad)).
  assert (Pd : 0 < energy d) by (rewrite (energy_parts d vad L); lra).
  assert (Q1 : 0 < energy d / INR (length d)) by (now apply Rdiv_lt_0_compat). assert (Q2 : 0 < energy (part true d vad) / INR (length (part true d vad))) by (now apply Rdiv_lt_0_compat).
  unfold db. destruct (Req_EM_T _ 0); [lra|]. destruct (Req_EM_T _ 0); [lra|]. reflexivity.
Qed.
Lemma log10_le x y : 0 < x -> 0 < y -> log10 x <= log10 y -> x <= y.
Proof.
  intros Hx Hy H. destruct (Rle_lt_dec x y) as [L|L]; [exact L|exfalso]. apply (ln_increasing y x Hy) in L. unfold log10, Rdiv in H. pose proof (Rinv_0_lt_compat _ ln10). nra.
Qed.
Lemma worst_snr nodes vad r k dr dk : set_tree_root false Snr nodes = Ok (Some r) ->
  (forall d v, In (d, v) nodes -> v = vad /\ length d = length vad /\ 0 < energy (part true d vad)) ->
  nth_error nodes r = Some (dr, vad) -> nth_error nodes k = Some (dk, vad) ->
  energy (part true dr vad) * energy (part false dk vad) <= energy (part true dk vad) * energy (part false dr vad).
Proof.
  intros H HN Hr Hk. destruct (largest_measure nodes r H) as (snrs & E & M).
  assert (V : forall i d, nth_error nodes i = Some (d, vad) -> exists x, nth_error snrs i = Some (Fin x) /\ x = 10 * log10 (energy d / INR (length d) / (energy (part true d vad) / INR (length (part true d vad))))).
  { intros i d Hi. destruct (HN d vad (nth_error_In _ _ Hi)) as (_ & L & P). eexists. split; [|reflexivity]. destruct (mapM_nth _ _ _ i _ E Hi) as (z & Z1 & Z2). cbn [fst snd] in *.
    rewrite (root_snr_value d vad L P) in *. congruence. }
  destruct (V r dr Hr) as (y & Ey & Vy), (V k dk Hk) as (x & Ex & Vx). specialize (M k x Ex). rewrite Ey in M.
  assert (NN : forall i, nth_error snrs i <> Some NaN).
  { intros i Hi. destruct (nth_error nodes i) as [[d v]|] eqn:En.
    - destruct (HN d v (nth_error_In _ _ En)) as (-> & _). destruct (V i d En) as (z & Z1 & _). congruence.
    - apply nth_error_None in En. apply mapM_length in E. assert (i < length snrs)%nat by (apply nth_error_Some; congruence). lia. }
  specialize (M NN). subst x y. destruct (HN dr vad (nth_error_In _ _ Hr)) as (_ & Lr & Pr), (HN dk vad (nth_error_In _ _ Hk)) as (_ & Lk & Pk).
  rewrite (part_length dk dr vad Lk Lr) in M. replace (length dk) with (length dr) in M by congruence. set (N := INR (length dr)) in *. set (K := INR (length (part true dr vad))) in *.
  assert (Np : part true dr vad <> []) by (intros Z0; rewrite Z0 in Pr; unfold energy, rsum in Pr; cbn in Pr; lra). assert (Nd : dr <> []) by (intros ->; apply Np; reflexivity).
  assert (PN : 0 < N) by (now apply INR_len). assert (PK : 0 < K) by (now apply INR_len). pose proof (energy_pos (part false dr vad)) as Qr. pose proof (energy_pos (part false dk vad)) as Qk.
  rewrite (energy_parts dr vad Lr), (energy_parts dk vad Lk) in M. set (ar := energy (part true dr vad)) in *. set (ak := energy (part true dk vad)) in *.
  set (br := energy (part false dr vad)) in *. set (bk := energy (part false dk vad)) in *.
  assert (M2 : (ak + bk) / N / (ak / K) <= (ar + br) / N / (ar / K)).
  { apply log10_le; [repeat apply Rdiv_lt_0_compat; lra|repeat apply Rdiv_lt_0_compat; lra|lra]. }
  replace ((ak + bk) / N / (ak / K)) with ((ak + bk) * ar * (K / N / (ak * ar))) in M2 by (field; lra). replace ((ar + br) / N / (ar / K)) with ((ar + br) * ak * (K / N / (ak * ar))) in M2 by (field; lra).
  apply Rmult_le_reg_r in M2; [lra|]. repeat apply Rdiv_lt_0_compat; try assumption. now apply Rmult_lt_0_compat.
Qed.
