(** Facts about SNR estimates from the microphone signals. *)
From Verif Require Import Base BaseFacts Eval EvalSpec EvalFacts SnrMix SnrMixSpec.
From Coq Require Import Reals Lra.
Local Open Scope R_scope.

Lemma pick_during b x vad : pick b x vad = during b x vad.
Proof.
  unfold pick. revert vad. induction x as [|a x IH]; intros [|v vad]; cbn [combine filter map during]; try reflexivity. cbn [snd].
  destruct (Bool.eqb v b); cbn [map fst]; rewrite IH; reflexivity.
Qed.
Lemma during_len b x vad : length vad = length x -> length (during b x vad) = length (filter (fun v => Bool.eqb v b) vad).
Proof.
  revert vad. induction x as [|a x IH]; intros [|v vad] H; cbn in *; try discriminate; [reflexivity|]. destruct (Bool.eqb v b); cbn [length]; rewrite IH by lia; reflexivity.
Qed.
Lemma count_true v : filter (fun b : bool => b) v = filter (fun b => Bool.eqb b true) v.
Proof. apply filter_ext. intros []; reflexivity. Qed.
Lemma count_both (v : list bool) : (length (filter (fun b => Bool.eqb b true) v) + length (filter (fun b => Bool.eqb b false) v) = length v)%nat.
Proof. induction v as [|[] v IH]; cbn in *; lia. Qed.
Lemma nonempty {A} (l : list A) : (0 < length l)%nat -> l <> [].
Proof. destruct l; [cbn; lia | discriminate]. Qed.

Lemma has_kind b v : In b v -> (0 < length (filter (fun a => Bool.eqb a b) v))%nat.
Proof.
  intros H. assert (I : In b (filter (fun a => Bool.eqb a b) v)) by (apply filter_In; split; [exact H | destruct b; reflexivity]).
  destruct (filter _ v); [destruct I | apply Nat.lt_0_succ].
Qed.
(** both kinds of samples *)
Lemma getSNR_both x vad : length vad = length x -> In true vad -> In false vad ->
  getSNR x vad = Ok (ratio (power (during true x vad) - power (during false x vad)) (power (during false x vad))).
Proof.
  intros L Ht Hf. unfold getSNR. rewrite firstn_all2 by lia. rewrite count_true.
  assert (Pt := has_kind true vad Ht). assert (Pf := has_kind false vad Hf).
  assert (B := count_both vad). rewrite (proj2 (Nat.ltb_lt _ _) Pt). cbn [andb].
  destruct (Nat.ltb_spec 0 (length vad - length (filter (fun b => Bool.eqb b true) vad))); [|lia]. rewrite L, Nat.eqb_refl. cbn [negb].
  rewrite !pick_during. rewrite !mean_squares by (apply nonempty; rewrite during_len by exact L; assumption). reflexivity.
Qed.
Lemma getSNR_total x vad : (length x <= length vad)%nat -> exists r, getSNR x vad = Ok r.
Proof.
  intros H. unfold getSNR. rewrite firstn_length, (Nat.min_l _ _ H), Nat.eqb_refl. cbn [negb].
  destruct (_ && _); [|destruct (Nat.eqb _ _); eexists; reflexivity]. destruct (mean _); try (eexists; reflexivity). destruct (mean _); eexists; reflexivity.
Qed.
Lemma all_same (v : list bool) b : (forall a, In a v -> a = b) -> filter (fun b => b) v = if b then v else [].
Proof. induction v as [|a v IH]; intros H; cbn; [destruct b; reflexivity|]. rewrite (H a) by (left; reflexivity). rewrite IH by (intros; apply H; right; assumption). destruct b; reflexivity. Qed.

(** the tracker *)
Section Node.
  Variables (nv alpha : R).
  Hypotheses (Hn : 0 < nv) (Ha : 0 <= alpha <= 1).
  Lemma at_least_range v b : v <= b -> nv <= b -> nv <= at_least nv v <= b.
  Proof. intros H1 H2. unfold at_least. destruct (Rlt_dec v nv); lra. Qed.
  Lemma track_range b : nv <= b -> forall xs prev, nv <= prev <= b -> (forall x, In x xs -> x * x <= b) -> forall v, In v (track nv alpha prev xs) -> nv <= v <= b.
  Proof.
    intros Hb. induction xs as [|x xs IH]; intros prev Hp Hx v Hv; cbn [track] in Hv; [destruct Hv|].
    assert (Q : x * x <= b) by (apply Hx; left; reflexivity).
    assert (S : nv <= at_least nv (alpha * prev + (1 - alpha) * (x * x)) <= b).
    { apply at_least_range; [|exact Hb]. assert (alpha * prev <= alpha * b) by (apply Rmult_le_compat_l; lra). assert ((1 - alpha) * (x * x) <= (1 - alpha) * b) by (apply Rmult_le_compat_l; lra). lra. }
    destruct Hv as [<-|Hv]; [exact S|]. exact (IH _ S (fun y Hy => Hx y (or_intror Hy)) v Hv).
  Qed.
  Lemma sig_var_range b xs : nv <= b -> (forall x, In x xs -> x * x <= b) -> forall v, In v (sig_var nv alpha xs) -> nv <= v <= b.
  Proof.
    intros Hb Hx v Hv. destruct xs as [|x xs]; cbn [sig_var] in Hv; [destruct Hv|].
    assert (S : nv <= at_least nv 0 <= b) by (apply at_least_range; lra).
    destruct Hv as [<-|Hv]; [exact S|]. exact (track_range b Hb xs _ S (fun y Hy => Hx y (or_intror Hy)) v Hv).
  Qed.
  Lemma sig_var_len xs : length (sig_var nv alpha xs) = length xs.
  Proof. destruct xs as [|x xs]; [reflexivity|]. cbn. f_equal. generalize (at_least nv 0). induction xs as [|y xs IH]; intros p; cbn; [reflexivity | f_equal; apply IH]. Qed.
  Lemma track_const P : nv <= P -> forall xs prev, nv <= prev <= P -> (forall x, In x xs -> x * x = P) ->
    forall n, (n < length xs)%nat -> nth n (track nv alpha prev xs) 0 = P - alpha ^ S n * (P - prev).
  Proof.
    intros HP. induction xs as [|x xs IH]; intros prev Hp Hx n L; cbn [length] in L; [lia|]. cbn [track]. rewrite (Hx x (or_introl eq_refl)).
    assert (A1 : 0 <= alpha * (P - prev)) by (apply Rmult_le_pos; lra). assert (A2 : alpha * (P - prev) <= 1 * (P - prev)) by (apply Rmult_le_compat_r; lra).
    assert (E : at_least nv (alpha * prev + (1 - alpha) * P) = P - alpha * (P - prev)) by (unfold at_least; destruct (Rlt_dec _ _); lra). rewrite E.
    destruct n as [|n]; cbn [nth]; [simpl; ring|].
    rewrite IH; [cbn [pow]; ring | lra | intros y Hy; apply Hx; right; exact Hy | lia].
  Qed.
  Lemma sig_var_const P xs : nv <= P -> (forall x, In x xs -> x * x = P) -> forall n, (n < length xs)%nat -> nth n (sig_var nv alpha xs) 0 = P - alpha ^ n * (P - nv).
  Proof.
    intros HP Hx n L. destruct xs as [|x xs]; cbn [length] in L; [lia|]. cbn [sig_var].
    assert (E : at_least nv 0 = nv) by (unfold at_least; destruct (Rlt_dec 0 nv); lra). rewrite E.
    destruct n as [|n]; cbn [nth]; [simpl; ring|]. apply track_const; [exact HP | lra | intros y Hy; apply Hx; right; exact Hy | lia].
  Qed.
End Node.

Lemma rsum_le l b : 0 <= b -> (forall v, In v l -> v <= b) -> rsum l <= INR (length l) * b.
Proof.
  intros Hb. induction l as [|a l IH]; intros H; cbn [rsum fold_right length]; [cbn; lra|]. fold (rsum l). rewrite S_INR.
  assert (a <= b) by (apply H; left; reflexivity). assert (rsum l <= INR (length l) * b) by (apply IH; intros; apply H; right; assumption). lra.
Qed.
Lemma smooth_le M v b i : (0 < M)%nat -> 0 <= b -> (forall x, In x v -> x <= b) -> smooth M v i <= INR (length v) * b / INR M.
Proof.
  intros HM Hb H. unfold smooth. apply Rmult_le_compat_r; [left; apply Rinv_0_lt_compat; apply lt_0_INR; exact HM|].
  assert (R := rsum_le (map (fun k => if Nat.leb k (i + (M - 1) / 2) && Nat.ltb (i + (M - 1) / 2) (k + M) then nth k v 0 else 0) (seq 0 (length v))) b Hb).
  rewrite map_length, seq_length in R. apply R. intros y Hy. apply in_map_iff in Hy as (k & <- & Hk). apply in_seq in Hk.
  destruct (_ && _); [apply H; apply nth_In; lia | exact Hb].
Qed.
Lemma rsum_app l l' : rsum (l ++ l') = rsum l + rsum l'.
Proof. induction l as [|a l IH]; [change (rsum l' = 0 + rsum l'); lra|]. change (a + rsum (l ++ l') = a + rsum l + rsum l'). rewrite IH. lra. Qed.
Lemma rsum_zero {A} (f : A -> R) l : (forall a, In a l -> f a = 0) -> rsum (map f l) = 0.
Proof. induction l as [|a l IH]; intros H; [reflexivity|]. change (f a + rsum (map f l) = 0). rewrite (H a (or_introl eq_refl)), IH; [lra | intros; apply H; right; assumption]. Qed.
Lemma nth_window (v : list R) a : forall m, (a + m <= length v)%nat -> map (fun k => nth k v 0) (seq a m) = firstn m (skipn a v).
Proof.
  revert v. induction a as [|a IH]; intros v m H.
  - cbn [skipn]. revert v H. induction m as [|m IHm]; intros [|x v] H; cbn [length] in H; try lia; [reflexivity|reflexivity|]. cbn [seq map nth firstn]. f_equal. rewrite <- seq_shift, map_map. cbn [nth]. apply IHm. lia.
  - destruct v as [|x v]; cbn [length] in H; [replace m with 0%nat by lia; reflexivity|]. cbn [skipn]. rewrite <- seq_shift, map_map. cbn [nth]. apply IH. lia.
Qed.
Lemma smooth_inside M v i : (0 < M)%nat -> (M / 2 <= i)%nat -> (i + (M - 1) / 2 < length v)%nat ->
  smooth M v i = rsum (firstn M (skipn (i - M / 2) v)) / INR M.
Proof.
  intros HM H1 H2. unfold smooth. f_equal. set (c := (i + (M - 1) / 2)%nat) in *. set (a := (i - M / 2)%nat).
  assert (Ec : (a + M = S c)%nat).
  { unfold a, c. assert (D := Nat.div_mod M 2 ltac:(lia)). assert (E := Nat.div_mod (M - 1) 2 ltac:(lia)). assert (B := Nat.mod_upper_bound M 2 ltac:(lia)). assert (B' := Nat.mod_upper_bound (M - 1) 2 ltac:(lia)). lia. }
  replace (length v) with (a + (M + (length v - S c)))%nat by lia. rewrite !seq_app, !map_app, !rsum_app. cbn [Nat.add].
  rewrite (rsum_zero _ (seq 0 a)), (rsum_zero _ (seq (a + M) _)).
  - rewrite <- nth_window by lia. rewrite Rplus_0_l, Rplus_0_r. f_equal. apply map_ext_in. intros k Hk. apply in_seq in Hk.
    destruct (Nat.leb_spec k c); [|lia]. destruct (Nat.ltb_spec c (k + M)); [reflexivity | lia].
  - intros k Hk. apply in_seq in Hk. destruct (Nat.leb_spec k c); [lia | reflexivity].
  - intros k Hk. apply in_seq in Hk. destruct (Nat.ltb_spec c (k + M)); [lia|]. rewrite Bool.andb_false_r. reflexivity.
Qed.

(** gains *)
Lemma during_gain g b x vad : during b (gain g x) vad = gain g (during b x vad).
Proof. revert vad. induction x as [|a x IH]; intros [|v vad]; cbn; try reflexivity. fold (gain g x). destruct (Bool.eqb v b); rewrite IH; reflexivity. Qed.
Lemma power_gain g x : power (gain g x) = g * g * power x.
Proof. unfold power. rewrite energy_gain. unfold gain. rewrite map_length. unfold Rdiv. ring. Qed.
Lemma ratio_scale c s n : 0 < c -> ratio (c * s) (c * n) = ratio s n.
Proof.
  intros H. unfold ratio. assert (S0 : c * s = 0 <-> s = 0) by (split; [intros E; apply Rmult_integral in E; lra | intros ->; ring]).
  assert (N0 : c * n = 0 <-> n = 0) by (split; [intros E; apply Rmult_integral in E; lra | intros ->; ring]).
  assert (L0 : c * s < 0 <-> s < 0).
  { split; intros E; [apply (Rmult_lt_reg_l c); lra|]. assert (c * s < c * 0) by (apply Rmult_lt_compat_l; assumption). lra. }
  destruct (Rlt_dec (c * s) 0), (Rlt_dec s 0); try tauto.
  destruct (Req_EM_T (c * n) 0), (Req_EM_T n 0), (Req_EM_T (c * s) 0), (Req_EM_T s 0); try tauto.
  f_equal. f_equal. f_equal. field. split; lra.
Qed.
Lemma has_dec (b : bool) v : In b v \/ forall a, In a v -> a = negb b.
Proof.
  destruct (existsb (Bool.eqb b) v) eqn:E.
  - left. apply existsb_exists in E as (a & Ha & E). apply Bool.eqb_prop in E as ->. exact Ha.
  - right. intros a Ha. destruct (Bool.eqb b a) eqn:F; [|destruct a, b; cbn in *; congruence]. exfalso.
    assert (T : existsb (Bool.eqb b) v = true) by (apply existsb_exists; exists a; split; assumption). congruence.
Qed.
Lemma getSNR_firstn x vad : getSNR x vad = getSNR x (firstn (length x) vad).
Proof. unfold getSNR. rewrite firstn_firstn, Nat.min_id. reflexivity. Qed.
Lemma getSNR_one x vad b : (forall a, In a (firstn (length x) vad) -> a = b) -> firstn (length x) vad <> [] -> getSNR x vad = Ok (if b then PInf else MInf).
Proof.
  intros H N. unfold getSNR. rewrite (all_same _ b H). set (v := firstn (length x) vad) in *. destruct b; cbn [length].
  - rewrite Nat.sub_diag. rewrite Bool.andb_false_r. destruct v; [congruence | reflexivity].
  - reflexivity.
Qed.
Lemma getSNR_gain g x vad : g <> 0 -> (length x <= length vad)%nat -> getSNR (gain g x) vad = getSNR x vad.
Proof.
  intros Hg L. rewrite (getSNR_firstn (gain g x)), (getSNR_firstn x). assert (Lg : length (gain g x) = length x) by apply map_length. rewrite Lg.
  set (v := firstn (length x) vad). assert (Lv : length v = length x) by (unfold v; rewrite firstn_length; lia).
  assert (Fv : firstn (length x) v = v) by (apply firstn_all2; lia).
  destruct v as [|a v'] eqn:Ev; [unfold getSNR; rewrite !firstn_nil; reflexivity|]. rewrite <- Ev in *.
  destruct (has_dec true v) as [Ht|Ht].
  - destruct (has_dec false v) as [Hf|Hf].
    + rewrite !getSNR_both by (try assumption; lia). rewrite !during_gain, !power_gain.
      rewrite <- (ratio_scale (g * g) (power (during true x v) - power (during false x v))) by (assert (0 < g * g) by (apply Rsqr_pos_lt in Hg; exact Hg); lra). f_equal. f_equal. ring.
    + rewrite (getSNR_one (gain g x) v true), (getSNR_one x v true); try reflexivity; rewrite ?Lg, Fv; try exact Hf; rewrite Ev; discriminate.
  - rewrite (getSNR_one (gain g x) v false), (getSNR_one x v false); try reflexivity; rewrite ?Lg, Fv; try exact Ht; rewrite Ev; discriminate.
Qed.
