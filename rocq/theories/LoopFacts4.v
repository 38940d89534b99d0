(** Facts about the closed loop: what its estimator sees and its controller does. *)
From Verif Require Import Base BaseFacts Dxcp DxcpFacts Resamp ResampFacts Phat PhatFacts PhatFacts2 PhatProps Loop LoopSpec LoopFacts LoopFacts2 LoopFacts3.
From Coq Require Import Reals Lra FunctionalExtensionality.
Local Open Scope R_scope.

Definition lastl (size : nat) (x : list R) : list R := skipn (length x) (repeat 0 size ++ x).
Lemma lastl_app size x z : (length z <= size)%nat -> lastl size (x ++ z) = skipn (length z) (lastl size x) ++ z.
Proof.
  intros H. unfold lastl. rewrite skipn_skipn, app_length, app_assoc, skipn_app.
  replace (length x + length z - length (repeat 0%R size ++ x))%nat with 0%nat by (rewrite app_length, repeat_length; lia).
  reflexivity.
Qed.
Lemma firstn_snoc {T} (l : list T) n d : (n < length l)%nat -> firstn (S n) l = firstn n l ++ [nth n l d].
Proof.
  revert l. induction n as [|n IH]; intros [|a l] H; cbn [length] in H; try lia; cbn [firstn nth app]; [reflexivity|]. f_equal. apply IH. lia.
Qed.
Lemma map_fst_combine (x z : list R) : length x = length z -> map fst (combine x z) = x.
Proof. revert z. induction x as [|a x IH]; intros [|b z] H; cbn in *; try discriminate; [reflexivity|]. f_equal. apply IH. lia. Qed.
Lemma map_snd_combine (x z : list R) : length x = length z -> map snd (combine x z) = z.
Proof. revert z. induction x as [|a x IH]; intros [|b z] H; cbn in *; try discriminate; [reflexivity|]. f_equal. apply IH. lia. Qed.
Lemma map_skipn {S T} (f : S -> T) n l : map f (skipn n l) = skipn n (map f l).
Proof. revert l. induction n as [|n IH]; intros [|a l]; cbn; try reflexivity. apply IH. Qed.

Lemma map_repeat_pair {S T} (f : S -> T) a m : map f (repeat a m) = repeat (f a) m.
Proof. induction m as [|m IH]; cbn; [reflexivity | f_equal; exact IH]. Qed.

Section L.
Context {C A : Type} (c : config) (frame : nat) (ctrl : C -> A -> R -> C) (out : C -> R).
Hypothesis (HF : (0 < frame <= shift c)%nat) (HS : (frame <= size c)%nat).
Let K := (shift c / frame)%nat.
Variables (c0 : C) (X : list (list R)) (Z : list (list R)).
Let X2 := repeat 0 frame :: repeat 0 frame :: X.
Hypothesis HX : forall x, In x X -> length x = frame.

Record sinv (n : nat) (st : loop C) (s : state) : Prop := {
  s_db : db_inv (repeat 0 frame) 3 (fst (l_sync st)) (rev (firstn n X));
  s_b0 : map fst (ibuf (l_est st)) = lastl (size c) (concat (firstn n X2));
  s_b1 : map snd (ibuf (l_est st)) = lastl (size c) (concat (firstn n Z));
  s_ct : (n / K * K + cnt (l_est st) = S n /\ 1 <= cnt (l_est st) <= K)%nat;
  s_st : sta (l_est st) = Ok s;
  s_up : updates c 0 (st0 c) (seen (size c) K X2 Z (n / K)) = Ok s }.

Lemma K_pos : (0 < K)%nat.
Proof. apply Nat.div_str_pos. exact HF. Qed.
Lemma sinv_new : sinv 0 (loop_new c frame c0) (st0 c).
Proof.
  assert (HK := K_pos). constructor; cbn [loop_new l_sync l_est sync_new est_new fst snd sta ibuf cnt firstn rev concat].
  - apply db_inv_new. lia.
  - unfold lastl. cbn [length skipn]. rewrite app_nil_r. apply (map_repeat_pair fst (0, 0)).
  - unfold lastl. cbn [length skipn]. rewrite app_nil_r. apply (map_repeat_pair snd (0, 0)).
  - rewrite Nat.div_0_l by lia. lia.
  - reflexivity.
  - rewrite Nat.div_0_l by lia. reflexivity.
Qed.
Lemma delayed n : (n < length X)%nat -> nth 2 (rev (firstn (S n) X)) (repeat 0 frame) = nth n X2 (repeat 0 frame).
Proof.
  intros Hn. unfold X2. destruct n as [|[|n]]; cbn [nth].
  - destruct X as [|a l]; reflexivity.
  - destruct X as [|a [|b l]]; reflexivity.
  - rewrite (firstn_snoc X (S (S n)) []), (firstn_snoc X (S n) []), (firstn_snoc X n (repeat 0 frame)) by lia. rewrite !rev_app_distr. reflexivity.
Qed.
Lemma frame_len n : length (nth n X2 (repeat 0 frame)) = frame.
Proof.
  destruct (Nat.lt_ge_cases n (length X2)) as [H|H]; [|rewrite nth_overflow by exact H; apply repeat_length].
  destruct (nth_In X2 (repeat 0 frame) H) as [E|[E|E]]; [rewrite <- E; apply repeat_length | rewrite <- E; apply repeat_length | apply HX; exact E].
Qed.
Lemma seen_snoc u : seen (size c) K X2 Z (S u) = seen (size c) K X2 Z u ++ [(last_samples (size c) (concat (firstn (S u * K) X2)), last_samples (size c) (concat (firstn (S u * K) Z)))].
Proof. unfold seen. rewrite seq_S, map_app. reflexivity. Qed.

Lemma sinv_step n st s x0 x1 a o st' : sinv n st s -> nth_error X n = Some x0 -> nth_error Z n = Some (o_frame o) -> length (o_frame o) = frame ->
  loop_step c frame ctrl out st x0 x1 a = Ok (o, st') ->
  exists s', sinv (S n) st' s' /\ o_raw o = sro s' /\ l_ctrl st' = ctrl (l_ctrl st) a (o_raw o) /\ o_est o = out (l_ctrl st').
Proof.
  intros [Idb Ib0 Ib1 Ict Ist Iup] Hx Hz Lz E. assert (HK := K_pos).
  assert (Ln : (n < length X)%nat) by (apply nth_error_Some; rewrite Hx; discriminate).
  assert (Lm : (n < length Z)%nat) by (apply nth_error_Some; rewrite Hz; discriminate).
  assert (Ex : x0 = nth n X (repeat 0 frame)) by (symmetry; apply nth_error_nth; exact Hx).
  assert (Ez : o_frame o = nth n Z []) by (symmetry; apply nth_error_nth; exact Hz).
  unfold loop_step, sync_step in E. destruct (rs_process frame _ x1 _ 0) as [p|]; [|discriminate]. cbn [bind] in E.
  destruct (db_inv_write (repeat 0 frame) 3 (fst (l_sync st)) _ x0 ltac:(lia) Idb) as (d' & Ed & Hdb'). rewrite Ed in E. cbn [bind] in E.
  assert (Hrev : x0 :: rev (firstn n X) = rev (firstn (S n) X)) by (rewrite (firstn_snoc X n (repeat 0 frame)), rev_app_distr, <- Ex by exact Ln; reflexivity).
  rewrite Hrev in Hdb'. rewrite (db_inv_read (repeat 0 frame) 3 d' _ ltac:(lia) Hdb') in E. cbn [bind fst snd] in E. change (3 - 1)%nat with 2%nat in E. rewrite delayed in E by exact Ln.
  set (z0 := nth n X2 (repeat 0 frame)) in *. assert (L0 : length z0 = frame) by apply frame_len.
  destruct (process_data _ _ _ _ _) as [e|] eqn:Ep; [|discriminate]. cbn [bind] in E.
  destruct (sta e) as [s'|] eqn:Es; [|discriminate]. cbn [bind] in E. injection E as <- <-. cbn [o_frame] in *. set (z1 := fst (fst p)) in *.
  exists s'. cbn [o_raw o_est l_ctrl]. split; [|repeat split; reflexivity].
  unfold process_data in Ep. destruct (negb _); [discriminate|]. injection Ep as <-. cbn [sta] in Es. fold K in Es.
  assert (B0 : map fst (skipn frame (ibuf (l_est st)) ++ combine z0 z1) = lastl (size c) (concat (firstn (S n) X2))).
  { rewrite map_app, map_skipn, map_fst_combine, Ib0 by lia. rewrite (firstn_snoc X2 n (repeat 0 frame)) by (unfold X2; cbn [length]; lia). fold z0. rewrite concat_app. cbn [concat]. rewrite app_nil_r, lastl_app by lia. rewrite L0. reflexivity. }
  assert (B1 : map snd (skipn frame (ibuf (l_est st)) ++ combine z0 z1) = lastl (size c) (concat (firstn (S n) Z))).
  { rewrite map_app, map_skipn, map_snd_combine, Ib1 by lia. rewrite (firstn_snoc Z n []) by exact Lm. rewrite <- Ez, concat_app. cbn [concat]. rewrite app_nil_r, lastl_app by lia. rewrite Lz. reflexivity. }
  destruct Ict as [Ic1 Ic2].
  constructor; cbn [l_sync l_est fst snd sta ibuf cnt]; try assumption.
  - fold K. destruct (Nat.eqb_spec (cnt (l_est st)) K) as [Hk|Hk].
    + replace (S n / K)%nat with (S (n / K)) by (apply (Nat.div_unique (S n) K (S (n / K)) 0); nia). split; nia.
    + replace (S n / K)%nat with (n / K)%nat by (apply (Nat.div_unique (S n) K (n / K) (cnt (l_est st))); lia). lia.
  - destruct (Nat.eqb_spec (cnt (l_est st)) K) as [Hk|Hk].
    + replace (S n / K)%nat with (S (n / K)) by (apply (Nat.div_unique (S n) K (S (n / K)) 0); nia).
      rewrite seen_snoc, (update_snoc c _ s _ Iup). cbn [fst snd]. replace (S (n / K) * K)%nat with (S n) by nia.
      unfold est_update in Es. rewrite Ist in Es. cbn [bind] in Es. rewrite <- Es. f_equal.
      * apply functional_extensionality. intros i. unfold last_samples. fold (lastl (size c) (concat (firstn (S n) X2))). rewrite <- B0. apply (map_nth fst _ (0, 0) i).
      * apply functional_extensionality. intros i. unfold last_samples. fold (lastl (size c) (concat (firstn (S n) Z))). rewrite <- B1. apply (map_nth snd _ (0, 0) i).
    + replace (S n / K)%nat with (n / K)%nat by (apply (Nat.div_unique (S n) K (n / K) (cnt (l_est st))); lia). rewrite Ist in Es. congruence.
Qed.

Lemma srun inp : forall n st s outs st', sinv n st s -> loop_run c frame ctrl out st inp = Ok (outs, st') ->
  (forall k x0 x1 a, nth_error inp k = Some (x0, x1, a) -> nth_error X (n + k) = Some x0) ->
  (forall k o, nth_error outs k = Some o -> nth_error Z (n + k) = Some (o_frame o) /\ length (o_frame o) = frame) ->
  forall k o, nth_error outs k = Some o ->
    (exists s', updates c 0 (st0 c) (seen (size c) K X2 Z (S (n + k) / K)) = Ok s' /\ o_raw o = sro s') /\
    o_est o = out (fold_left (fun ct p => ctrl ct (fst p) (snd p)) (firstn (S k) (combine (map snd inp) (map o_raw outs))) (l_ctrl st)).
Proof.
  induction inp as [|[[x0 x1] a] inp IH]; intros n st s outs st' I0 E H1 H2 k o Hk; cbn [loop_run] in E.
  - injection E as <- <-. destruct k; discriminate.
  - destruct (loop_step _ _ _ _ st x0 x1 a) as [[o1 st1]|] eqn:E1; [|discriminate]. cbn [bind snd fst] in E.
    destruct (loop_run _ _ _ _ st1 inp) as [[outs2 st2]|] eqn:E2; [|discriminate]. cbn [bind snd fst] in E. injection E as <- <-.
    destruct (H2 0%nat o1 eq_refl) as [Hz Lz]. rewrite Nat.add_0_r in Hz.
    assert (Hx := H1 0%nat x0 x1 a eq_refl). rewrite Nat.add_0_r in Hx.
    destruct (sinv_step n st s x0 x1 a o1 st1 I0 Hx Hz Lz E1) as (s1 & I1 & R1 & R2 & R3).
    destruct k as [|k]; cbn [nth_error] in Hk.
    + injection Hk as <-. rewrite Nat.add_0_r. split; [exists s1; split; [apply (s_up _ _ _ I1) | exact R1]|]. cbn [map combine firstn fold_left fst snd]. rewrite <- R2. exact R3.
    + destruct (IH (S n) st1 s1 outs2 st2 I1 E2) with (k := k) (o := o) as [J1 J2].
      * intros j y0 y1 b Hj. rewrite Nat.add_succ_comm. exact (H1 (S j) y0 y1 b Hj).
      * intros j o' Hj. rewrite Nat.add_succ_comm. exact (H2 (S j) o' Hj).
      * exact Hk.
      * rewrite Nat.add_succ_comm in J1. split; [exact J1|]. rewrite J2. cbn [map combine fst snd]. change (firstn (S (S k)) (?h :: ?t)) with (h :: firstn (S k) t). cbn [fold_left fst snd]. rewrite <- R2. reflexivity.
Qed.
End L.

Lemma loop_parts {C A} c frame (ctrl : C -> A -> R -> C) (out : C -> R) c0 inp outs st : usable c -> (0 < frame <= shift c)%nat -> (frame <= size c)%nat -> frames_ok frame inp ->
  loop_run c frame ctrl out (loop_new c frame c0) inp = Ok (outs, st) ->
  forall k o, nth_error outs k = Some o ->
    (exists s, updates c 0 (st0 c) (seen (size c) (shift c / frame) (repeat 0 frame :: repeat 0 frame :: map (fun p => fst (fst p)) inp) (map o_frame outs) (S k / (shift c / frame))) = Ok s /\ o_raw o = sro s) /\
    o_est o = out (fold_left (fun ct p => ctrl ct (fst p) (snd p)) (firstn (S k) (combine (map snd inp) (map o_raw outs))) c0).
Proof.
  intros HU HF HS Hf E.
  destruct (total_run c frame ctrl out (fun _ => True) c0 inp HU ltac:(lia) Hf I (fun _ _ _ _ => I)) as (outs' & st' & E' & _ & G & _). rewrite E in E'. injection E' as <- <-.
  apply (srun c frame ctrl out HF HS c0 (map (fun p => fst (fst p)) inp) (map o_frame outs)) with (n := 0%nat) (st := loop_new c frame c0) (s := st0 c) (st' := st).
  - intros x Hx. apply in_map_iff in Hx as ([[x0 x1] a] & <- & Hi). apply (Hf x0 x1 a Hi).
  - exact (sinv_new c frame ctrl out HF HS c0 _ _).
  - exact E.
  - intros k x0 x1 a Hk. cbn [Nat.add]. rewrite nth_error_map, Hk. reflexivity.
  - intros k o Hk. cbn [Nat.add]. rewrite nth_error_map, Hk. split; [reflexivity|]. apply G. apply nth_error_In in Hk. exact Hk.
Qed.
