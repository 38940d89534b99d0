(** Proofs about the delay line and the estimator counters. *)
From Verif Require Import Base BaseFacts Dxcp DxcpSpec.
From Coq Require Import Reals Lra.

Section Delay.
Context {A : Type} (z : A).
Definition db_inv (n : nat) (d : dbuf A) (h : list A) : Prop :=
  length (dat d) = n /\ dpos d = length h mod n /\
  forall i, i < n -> nth ((length h + i) mod n) (dat d) z = nth (n - 1 - i) h z.

Lemma nth_repeat_any (k i : nat) : nth i (repeat z k) z = z.
Proof. destruct (Nat.lt_ge_cases i k); [apply nth_repeat | apply nth_overflow; rewrite repeat_length; assumption]. Qed.
Lemma db_inv_new n : 0 < n -> db_inv n (db_new z n) [].
Proof.
  intros Hn. split; [apply repeat_length|]. split; [cbn; rewrite Nat.mod_0_l by lia; reflexivity|].
  intros i Hi. cbn [db_new dat]. rewrite nth_repeat_any. destruct (n - 1 - i); reflexivity.
Qed.
Lemma upd_nth_d i j (x : A) l : i < length l -> nth j (upd i x l) z = if Nat.eqb i j then x else nth j l z.
Proof.
  revert i j. induction l as [|y l IH]; intros i j Hi; [cbn in Hi; lia|]. destruct i, j; cbn; try reflexivity. apply IH. cbn in Hi. lia.
Qed.
Lemma mod_shift_ne n h i : 0 < n -> i < n - 1 -> (h + 1 + i) mod n <> h mod n.
Proof.
  intros Hn Hi H. assert (H1 := Nat.div_mod (h + 1 + i) n ltac:(lia)). assert (H2 := Nat.div_mod h n ltac:(lia)).
  rewrite H in H1. remember ((h + 1 + i) / n) as q1 eqn:E1. remember (h / n) as q2 eqn:E2. clear E1 E2.
  assert (Hq : n * q1 = n * q2 + (1 + i)) by lia. destruct (Nat.lt_trichotomy q1 q2) as [C|[C|C]]; nia.
Qed.
Lemma db_inv_write n d h x : 0 < n -> db_inv n d h -> exists d', db_write d x = Ok d' /\ db_inv n d' (x :: h).
Proof.
  intros Hn (H1 & H2 & H3). unfold db_write. assert (Hp : dpos d < length (dat d)) by (rewrite H1, H2; apply Nat.mod_upper_bound; lia).
  destruct (get_lt (dat d) (dpos d) Hp) as [y Hy]. rewrite Hy. eexists. split; [reflexivity|].
  split; [cbn [dat]; rewrite upd_length; exact H1|]. split.
  - cbn [dpos length]. rewrite H1, H2. rewrite Nat.add_mod_idemp_l by lia. f_equal. lia.
  - intros i Hi. cbn [dat length]. rewrite upd_nth_d by exact Hp. rewrite H2.
    replace (S (length h) + i) with (length h + 1 + i) by lia.
    destruct (Nat.eq_dec i (n - 1)) as [->|Hne].
    + replace (length h + 1 + (n - 1)) with (length h + 1 * n) by lia. rewrite Nat.mod_add, Nat.eqb_refl by lia. replace (n - 1 - (n - 1)) with 0 by lia. reflexivity.
    + assert (Hm := mod_shift_ne n (length h) i Hn ltac:(lia)). destruct (Nat.eqb_spec (length h mod n) ((length h + 1 + i) mod n)) as [E|_]; [congruence|].
      replace (length h + 1 + i) with (length h + (i + 1)) by lia. rewrite H3 by lia. replace (n - 1 - i) with (S (n - 1 - (i + 1))) by lia. reflexivity.
Qed.
Lemma db_inv_read n d h : 0 < n -> db_inv n d h -> db_read d = Ok (nth (n - 1) h z).
Proof.
  intros Hn (H1 & H2 & H3). unfold db_read. assert (Hp : dpos d < length (dat d)) by (rewrite H1, H2; apply Nat.mod_upper_bound; lia).
  apply get_some. specialize (H3 0 Hn). rewrite Nat.add_0_r, Nat.sub_0_r in H3. rewrite <- H3, <- H2. apply nth_error_nth'. exact Hp.
Qed.
Lemma db_run_ok n os : 0 < n -> forall d h, db_inv n d h -> db_run z d os = Ok (ideal_reads z n h os).
Proof.
  intros Hn. induction os as [|o os IH]; intros d h Hi; [reflexivity|]. destruct o as [x| |]; cbn [db_run db_step ideal_reads].
  - destruct (db_inv_write n d h x Hn Hi) as (d' & E & Hi'). rewrite E. cbn [bind fst snd]. rewrite (IH d' _ Hi'). reflexivity.
  - rewrite (db_inv_read n d h Hn Hi). cbn [bind fst snd]. rewrite (IH d h Hi). reflexivity.
  - cbn [bind fst snd]. rewrite (IH _ []); [reflexivity|]. destruct Hi as (H1 & _). unfold db_clear. rewrite H1. apply db_inv_new. exact Hn.
Qed.
End Delay.

Section Est.
Context {A S : Type} (update : list A -> S -> S) (frame shift : nat) (z : A).
Lemma process_all_app (e : est A S) xs ys : process_all update frame shift e (xs ++ ys) = do e' <- process_all update frame shift e xs; process_all update frame shift e' ys.
Proof. revert e. induction xs as [|x xs IH]; intros e; [reflexivity|]. cbn. destruct (process_data update frame shift e x); cbn; [apply IH | reflexivity]. Qed.
Lemma last_step size xs x : length x <= size ->
  skipn (length x) (last_samples z size (length xs) xs) ++ x = last_samples z size (length (xs ++ [x])) (xs ++ [x]).
Proof.
  intros Hx. unfold last_samples. rewrite !firstn_all, concat_app. cbn [concat]. rewrite app_nil_r, app_assoc.
  set (s := repeat z size ++ concat xs). assert (Hs : size <= length s) by (unfold s; rewrite app_length, repeat_length; lia).
  rewrite app_length. rewrite skipn_skipn. replace (length s + length x - size) with (length s - size + length x) by lia.
  rewrite skipn_app. replace (length s - size + length x - length s) with 0 by lia. reflexivity.
Qed.
Lemma last_samples_prefix size t xs ys : t <= length xs -> last_samples z size t (xs ++ ys) = last_samples z size t xs.
Proof. intros H. unfold last_samples. rewrite firstn_app. replace (t - length xs) with 0 by lia. cbn [firstn]. rewrite app_nil_r. reflexivity. Qed.

Lemma est_ok size s0 xs : frame <= size -> 1 <= shift / frame -> (forall x, In x xs -> length x = frame) ->
  process_all update frame shift (est_new size z s0) xs = Ok
    (mkEst (last_samples z size (length xs) xs) (length xs mod (shift / frame) + 1)
      (fold_left (fun s j => update (last_samples z size (j * (shift / frame)) xs) s) (seq 1 (length xs / (shift / frame))) s0)).
Proof.
  intros Hf Hk. set (K := shift / frame) in *. induction xs as [|x xs IH] using rev_ind; intros Hx.
  - cbn [process_all length]. rewrite Nat.mod_0_l, Nat.div_0_l by lia. unfold est_new, last_samples. cbn [firstn concat seq fold_left]. rewrite app_nil_r, repeat_length, Nat.sub_diag. reflexivity.
  - rewrite process_all_app, IH by (intros y Hy; apply Hx; apply in_app_iff; left; exact Hy). cbn [bind process_all].
    assert (Hl : length x = frame) by (apply Hx; apply in_app_iff; right; left; reflexivity).
    unfold process_data. rewrite Hl, Nat.eqb_refl. cbn [negb ibuf cnt sta bind]. fold K. rewrite <- Hl, last_step by lia.
    rewrite app_length. cbn [length]. set (t := length xs).
    assert (E := Nat.div_mod t K ltac:(lia)). assert (Hm := Nat.mod_upper_bound t K ltac:(lia)).
    assert (Hext : forall q s, q * K <= t -> fold_left (fun s j => update (last_samples z size (j * K) (xs ++ [x])) s) (seq 1 q) s =
                               fold_left (fun s j => update (last_samples z size (j * K) xs) s) (seq 1 q) s).
    { intros q. induction q as [|q IHq]; intros s Hq; [reflexivity|]. rewrite seq_S, !fold_left_app. cbn [fold_left]. rewrite IHq by nia. rewrite last_samples_prefix by (fold t; nia). reflexivity. }
    destruct (Nat.eqb_spec (t mod K + 1) K) as [Eh|Eh].
    + assert (Hd : (t + 1) / K = t / K + 1). { symmetry. apply (Nat.div_unique _ _ _ 0); [lia|]. nia. }
      assert (Hm0 : (t + 1) mod K = 0). { symmetry. apply (Nat.mod_unique _ _ (t / K + 1)); [lia|]. nia. }
      rewrite Hd, Hm0. do 2 f_equal. replace (t / K + 1) with (Datatypes.S (t / K)) by lia. rewrite seq_S, fold_left_app. cbn [fold_left]. rewrite Hext by nia. f_equal. f_equal. nia.
    + assert (Hd : (t + 1) / K = t / K). { symmetry. apply (Nat.div_unique _ _ _ (t mod K + 1)); [lia|]. nia. }
      assert (Hm0 : (t + 1) mod K = t mod K + 1). { symmetry. apply (Nat.mod_unique _ _ (t / K)); [lia|]. nia. }
      rewrite Hd, Hm0, Hext by nia. reflexivity.
Qed.
End Est.

Local Open Scope R_scope.
Lemma simple_bounds inp : -100 <= snd (simple_run inp) <= 100.
Proof.
  unfold simple_run. assert (G : forall l st, -100 <= snd st <= 100 -> -100 <= snd (fold_left (fun st p => simple_ctrl st (fst p) (snd p)) l st) <= 100).
  { induction l as [|p l IH]; intros st H; [exact H|]. cbn [fold_left]. apply IH. unfold simple_ctrl. cbn [snd].
    destruct (Rlt_dec _ _); [lra|]. destruct (Rlt_dec _ _); lra. }
  apply G. cbn. lra.
Qed.
Lemma simple_step inp acs r : let st := simple_run inp in let st' := simple_run (inp ++ [(acs, r)]) in
  fst st' = (1 - acs) * fst st + acs * r /\ snd st' = Rmax (-100) (Rmin 100 (snd st + fst st' / 100)).
Proof.
  intros st st'. unfold st', simple_run. rewrite fold_left_app. cbn [fold_left fst snd]. fold (simple_run inp). fold st. unfold simple_ctrl. cbn [fst snd]. split; [reflexivity|].
  replace (((1 - acs) * fst st + acs * r) / 100) with (/ 100 * ((1 - acs) * fst st + acs * r)) by field. set (s := snd st + / 100 * _).
  destruct (Rlt_dec s (-100)); [rewrite Rmin_right, Rmax_left by lra; reflexivity|].
  destruct (Rlt_dec 100 s); [rewrite Rmin_left, Rmax_right by lra; reflexivity|]. rewrite Rmin_right, Rmax_right by lra; reflexivity.
Qed.

(** the first controller: silent until the start delay is over *)
Lemma imc_run_snoc k1 k2 c1 c2 dl l p : imc_run k1 k2 c1 c2 dl (l ++ [p]) = imc_step k1 k2 c1 c2 dl (imc_run k1 k2 c1 c2 dl l) (fst p) (snd p).
Proof. unfold imc_run. rewrite fold_left_app. reflexivity. Qed.
Lemma imc_ell k1 k2 c1 c2 dl l : ell (imc_run k1 k2 c1 c2 dl l) = length l.
Proof.
  induction l as [|p l IH] using rev_ind; [reflexivity|]. rewrite imc_run_snoc, app_length. unfold imc_step.
  destruct (dS _) as [[d0 d1] d2], (sS _) as [[s0 s1] s2]. cbn [ell length]. rewrite IH. lia.
Qed.
Lemma imc_silent k1 k2 c1 c2 dl l : (forall i a r, nth_error l i = Some (a, r) -> (i <= dl)%nat \/ a = false \/ r = 0) ->
  dS (imc_run k1 k2 c1 c2 dl l) = (0, 0, 0) /\ sS (imc_run k1 k2 c1 c2 dl l) = (0, 0, 0).
Proof.
  induction l as [|[a r] l IH] using rev_ind; intros H; [split; reflexivity|]. rewrite imc_run_snoc. destruct IH as [H1 H2].
  { intros i a' r' Hi. apply (H i a' r'). rewrite nth_error_app1; [exact Hi|]. apply nth_error_Some. congruence. }
  unfold imc_step. rewrite H1, H2, imc_ell. cbn [fst snd dS sS].
  assert (E : (if Nat.leb (length l) dl then 0 else if a then r else 0) = 0).
  { destruct (Nat.leb_spec (length l) dl); [reflexivity|]. destruct (H (length l) a r) as [C|[C|C]]; [rewrite nth_error_app2, Nat.sub_diag by lia; reflexivity | lia | subst; reflexivity | subst; destruct a; reflexivity]. }
  rewrite E. split; [reflexivity|]. repeat f_equal; ring.
Qed.
Lemma imc_delayed k1 k2 c1 c2 dl l : (length l <= dl + 2)%nat -> imc_out (imc_run k1 k2 c1 c2 dl l) = 0.
Proof.
  intros Hl. destruct (Nat.le_gt_cases (length l) (dl + 1)) as [H|H].
  - unfold imc_out. destruct (imc_silent k1 k2 c1 c2 dl l) as [_ H2].
    { intros i a r Hi. left. assert (i < length l)%nat by (apply nth_error_Some; congruence). lia. }
    rewrite H2. reflexivity.
  - destruct l as [|p l _] using rev_ind; [reflexivity|]. rewrite app_length in *. cbn [length] in *. rewrite imc_run_snoc.
    destruct (imc_silent k1 k2 c1 c2 dl l) as [H1 H2].
    { intros i a r Hi. left. assert (i < length l)%nat by (apply nth_error_Some; congruence). lia. }
    unfold imc_out, imc_step. rewrite H1, H2. cbn [fst snd sS]. ring.
Qed.
