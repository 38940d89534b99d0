From Coq Require Import Nsatz.
From Verif Require Import Base BaseFacts Layout LayoutSpec LayoutFacts Spin SpinSpec.

From Coq Require Import Reals Lra.
Local Open Scope R_scope.

Lemma ltb_true a b : ltb a b = true <-> a < b.
Proof. unfold ltb. destruct (Rlt_dec a b); split; intros; try assumption; try reflexivity; [discriminate|contradiction]. Qed.
Lemma ltb_false a b : ltb a b = false <-> b <= a.
Proof. unfold ltb. destruct (Rlt_dec a b); split; intros; try reflexivity; try discriminate; lra. Qed.
Lemma existsb_false {A} (f : A -> bool) l : existsb f l = false -> forall x, In x l -> f x = false.
Proof. intros H x I. destruct (f x) eqn:E; [|reflexivity]. exfalso. assert (existsb f l = true) by (apply existsb_exists; eauto). congruence. Qed.
Lemma outside_away rd m p : outside m rd p = false <-> away rd m p.
Proof. unfold outside, away. rewrite !Bool.orb_false_iff, !ltb_false. lra. Qed.

Section Line.
  Variables (maxIter : nat) (az el m maxR : R) (rd : vec) (ox oy : R) (draw : nat -> R).
  Notation lp := (line_point az el m maxR ox oy).
  Lemma lp_on u : on_line az el ox oy (lp u).
  Proof. unfold line_point. eexists. reflexivity. Qed.
  Lemma inside_ok left : forall t p l t', draw_inside az el m maxR rd ox oy draw left t = Some (p, l, t') -> away rd m p /\ on_line az el ox oy p.
  Proof.
    induction left as [|left IH]; intros t p l t' H; cbn [draw_inside] in H; [discriminate|]. destruct (outside m rd (lp (draw t))) eqn:E; [now apply IH in H|].
    injection H as <- _ _. split; [now apply outside_away|apply lp_on].
  Qed.
  Lemma inside_first k : forall left t, (k < left)%nat -> (forall i, (i < k)%nat -> ~ away rd m (lp (draw (t + i)))) -> away rd m (lp (draw (t + k))) ->
    draw_inside az el m maxR rd ox oy draw left t = Some (lp (draw (t + k)), (left - S k)%nat, S (t + k)).
  Proof.
    induction k as [|k IH]; intros [|left] t Hk Hb Ha; try lia; cbn [draw_inside].
    - rewrite Nat.add_0_r in *. apply outside_away in Ha. rewrite Ha. repeat f_equal. lia.
    - destruct (outside m rd (lp (draw t))) eqn:E; [|exfalso; apply (Hb 0%nat); [lia|]; rewrite Nat.add_0_r; apply outside_away; exact E].
      rewrite (IH left (S t)); [|lia| |].
      + replace (S t + k)%nat with (t + S k)%nat by lia. reflexivity.
      + intros i Hi. replace (S t + i)%nat with (t + S i)%nat by lia. apply Hb. lia.
      + replace (S t + k)%nat with (t + S k)%nat by lia. exact Ha.
  Qed.
  Lemma inside_none left : forall t, (forall i, (i < left)%nat -> ~ away rd m (lp (draw (t + i)))) -> draw_inside az el m maxR rd ox oy draw left t = None.
  Proof.
    induction left as [|left IH]; intros t Hb; cbn [draw_inside]; [reflexivity|].
    destruct (outside m rd (lp (draw t))) eqn:E; [|exfalso; apply (Hb 0%nat); [lia|]; rewrite Nat.add_0_r; apply outside_away; exact E].
    apply IH. intros i Hi. replace (S t + i)%nat with (t + S i)%nat by lia. apply Hb. lia.
  Qed.
  Lemma spaced_ok left : forall t sp prev p q t', on_line az el ox oy p -> draw_spaced az el m maxR ox oy draw left t sp prev p = Some (q, t') ->
    on_line az el ox oy q /\ forall x, In x prev -> sp <= distance x q.
  Proof.
    induction left as [|left IH]; intros t sp prev p q t' Hp H; cbn [draw_spaced] in H; destruct (existsb _ prev) eqn:E; try discriminate.
    - injection H as <- _. split; [exact Hp|]. intros x I. apply (existsb_false _ _ E) in I. now apply ltb_false in I.
    - exact (IH _ _ _ _ _ _ (lp_on _) H).
    - injection H as <- _. split; [exact Hp|]. intros x I. apply (existsb_false _ _ E) in I. now apply ltb_false in I.
  Qed.
  Notation pts := (points maxIter az el m maxR rd ox oy draw).
  Lemma points_line n : forall sp prev t l, pts n sp prev t = Ok (Some l) -> Forall (on_line az el ox oy) prev -> Forall (on_line az el ox oy) l /\ length l = (length prev + n)%nat.
  Proof.
    induction n as [|n IH]; intros sp prev t l H HP; cbn [points] in H; [injection H as <-; split; [exact HP|lia]|].
    destruct (draw_inside _ _ _ _ _ _ _ _ _ _) as [[[p lf] t']|] eqn:E; [|discriminate]. apply inside_ok in E. destruct E as [_ Lp].
    assert (A : forall q, on_line az el ox oy q -> Forall (on_line az el ox oy) (prev ++ [q])) by (intros q Hq; apply Forall_app; split; [exact HP|constructor; [exact Hq|constructor]]).
    assert (LL : forall q : vec, length (prev ++ [q]) = S (length prev)) by (intros q; rewrite app_length; cbn; lia).
    destruct prev as [|q0 prev]; [|destruct sp as [s|]; [|discriminate]; destruct (ltb 0 s)].
    - apply IH in H; [|constructor; [exact Lp|constructor]]. destruct H as [H1 H2]. split; [exact H1|]. rewrite H2. cbn. lia.
    - destruct (draw_spaced _ _ _ _ _ _ _ _ _ _ _ _) as [[q t'']|] eqn:Es; [|discriminate]. apply spaced_ok in Es; [|exact Lp]. destruct Es as [Lq _].
      apply IH in H; [|now apply A]. destruct H as [H1 H2]. split; [exact H1|]. rewrite H2, LL. lia.
    - apply IH in H; [|now apply A]. destruct H as [H1 H2]. split; [exact H1|]. rewrite H2, LL. lia.
  Qed.
  Lemma points_inside n : forall sp prev t l, pts n sp prev t = Ok (Some l) -> Forall (away rd m) prev ->
    (forall s, sp = Some s -> s <= 0) \/ (length prev + n <= 1)%nat -> Forall (away rd m) l.
  Proof.
    induction n as [|n IH]; intros sp prev t l H HP HS; cbn [points] in H; [injection H as <-; exact HP|].
    destruct (draw_inside _ _ _ _ _ _ _ _ _ _) as [[[p lf] t']|] eqn:E; [|discriminate]. apply inside_ok in E. destruct E as [Ap _].
    destruct prev as [|q0 prev].
    - apply IH in H; [exact H|constructor; [exact Ap|constructor]|]. destruct HS as [HS|HS]; [now left|right; cbn in *; lia].
    - destruct sp as [s|]; [|discriminate]. destruct HS as [HS|HS]; [|cbn in HS; lia]. replace (ltb 0 s) with false in H by (symmetry; apply ltb_false; now apply HS).
      apply IH in H; [exact H|apply Forall_app; split; [exact HP|constructor; [exact Ap|constructor]]|now left].
  Qed.
  Lemma points_spaced n : forall s prev t l, 0 < s -> pts n (Some s) prev t = Ok (Some l) -> spaced s prev -> spaced s l.
  Proof.
    induction n as [|n IH]; intros s prev t l Hs H HP; cbn [points] in H; [injection H as <-; exact HP|].
    destruct (draw_inside _ _ _ _ _ _ _ _ _ _) as [[[p lf] t']|] eqn:E; [|discriminate]. apply inside_ok in E. destruct E as [_ Lp].
    destruct prev as [|q0 prev].
    - apply IH in H; [exact H|exact Hs|]. intros i j Hij. cbn in Hij. lia.
    - replace (ltb 0 s) with true in H by (symmetry; now apply ltb_true). destruct (draw_spaced _ _ _ _ _ _ _ _ _ _ _ _) as [[q t'']|] eqn:Es; [|discriminate]. apply spaced_ok in Es; [|exact Lp]. destruct Es as [_ Dq].
      apply IH in H; [exact H|exact Hs|]. intros i j Hij. rewrite app_length in Hij. cbn [length] in Hij. destruct (Nat.eq_dec j (S (length prev))) as [->|Nj].
      + rewrite app_nth1 by (cbn; lia). rewrite (app_nth2 _ _ _) by (cbn; lia). replace (S (length prev) - length (q0 :: prev))%nat with 0%nat by (cbn; lia). change (nth 0 [q] vzero) with q. apply Dq, nth_In. cbn. lia.
      + rewrite !app_nth1 by (cbn; lia). apply HP. cbn. lia.
  Qed.
End Line.

(** ** rotation *)
Lemma rot_identity bx by_ bz k w : bx * bx + by_ * by_ + bz * bz = 1 -> k * (bx * bx + by_ * by_) = 1 - bz -> k * (1 + bz) = 1 ->
  let v := V (- by_) bx 0 in let f w := vadd (vadd w (cross v w)) (vscale k (cross v (cross v w))) in
  dot (f w) (f w) = dot w w /\ dot (f w) (V bx by_ bz) = pz w.
Proof.
  intros H1 H2 H3 v f. destruct w as [x y z]. unfold f, v, dot, cross. cbn [vadd vscale px py pz]. split; nsatz.
Qed.
Lemma rotate_yx_ok t l l' : rotate_yx t l = Ok l' -> exists f, rotation f /\ (forall w, dot (f w) t = norm t * pz w) /\ l' = map (fun p => vadd (f (vsub p t)) t) l.
Proof.
  unfold rotate_yx. destruct (Req_EM_T (norm t) 0) as [|Nt]; [discriminate|]. set (b := vscale (/ norm t) t). set (v := cross _ b). set (c := dot _ b). destruct (Req_EM_T (norm v) 0) as [|Nv]; [discriminate|].
  intros H. injection H as <-. set (k := (1 - c) / (norm v * norm v)).
  exists (fun w => vadd (vadd w (cross v w)) (vscale k (cross v (cross v w)))).
  assert (Sq : forall x, norm x * norm x = dot x x) by (intros x; apply sqrt_sqrt, dot_pos).
  assert (B1 : px b * px b + py b * py b + pz b * pz b = 1). { change (dot b b = 1). unfold b. unfold dot. cbn [vscale px py pz]. replace (/ norm t * px t * (/ norm t * px t) + / norm t * py t * (/ norm t * py t) + / norm t * pz t * (/ norm t * pz t)) with (dot t t * (/ norm t * / norm t)) by (unfold dot; ring). rewrite <- Sq. field. exact Nt. }
  assert (Vv : v = V (- py b) (px b) 0) by (unfold v, cross; cbn [px py pz]; f_equal; ring).
  assert (Sv : norm v * norm v = px b * px b + py b * py b) by (rewrite Sq, Vv; unfold dot; cbn [px py pz]; ring).
  assert (Cc : c = pz b) by (unfold c, dot; cbn [px py pz]; ring).
  assert (Ns : px b * px b + py b * py b <> 0) by (rewrite <- Sv; intros Z0; apply Nv; apply Rmult_integral in Z0; tauto).
  assert (K2 : k * (px b * px b + py b * py b) = 1 - pz b) by (unfold k; rewrite Sv, Cc; field; exact Ns).
  assert (K3 : k * (1 + pz b) = 1). { apply Rmult_eq_reg_r with (1 - pz b); [|intros Z0; apply Ns; nra]. replace (k * (1 + pz b) * (1 - pz b)) with (k * (px b * px b + py b * py b)) by (replace (px b * px b + py b * py b) with (1 - pz b * pz b) by lra; ring). lra. }
  assert (ID := fun w => rot_identity (px b) (py b) (pz b) k w B1 K2 K3). cbv zeta in ID. rewrite <- Vv in ID.
  split; [|split].
  - split; [|split]; intros.
    + vec; unfold cross; cbn [vadd vscale px py pz]; ring.
    + vec; unfold cross; cbn [vadd vscale px py pz]; ring.
    + apply ID.
  - intros w. replace t with (vscale (norm t) (V (px b) (py b) (pz b))) at 1.
    + rewrite <- (proj2 (ID w)). unfold dot. cbn [vscale px py pz]. ring.
    + unfold b. vec; cbn [vscale px py pz]; field; exact Nt.
  - reflexivity.
Qed.

(** ** the check *)
Lemma rejected_false rd m S D N : rejected rd m S D N = Ok false ->
  Forall (away rd m) S /\ (length D = 1%nat \/ length D = 3%nat) /\ (length N = 1%nat \/ length N = 3%nat) /\
  (forall p, In p (D ++ N) -> m <= px p /\ m <= py p /\ m <= pz p) /\
  (forall p, D = [p] \/ N = [p] -> forall x d, In x (coords p) -> In d (coords rd) -> x <= d - m).
Proof.
  unfold rejected. destruct (_ || _) eqn:E; [discriminate|]. apply Bool.orb_false_iff in E. destruct E as [E1 E2]. intros H.
  apply bind_ok in H. destruct H as (f & EF & H). destruct (f || near m D) eqn:E3; [discriminate|]. apply Bool.orb_false_iff in E3. destruct E3 as [-> E3].
  apply bind_ok in H. destruct H as (g & EG & H). injection H as H. apply Bool.orb_false_iff in H. destruct H as [-> E4].
  assert (NR : forall l, near m l = false -> forall p, In p l -> m <= px p /\ m <= py p /\ m <= pz p).
  { intros l Hl p I. unfold near in Hl. apply (existsb_false _ _ Hl) in I. pose proof (existsb_false _ _ I) as Q.
    repeat split; apply ltb_false, Q; cbn; tauto. }
  assert (BY : forall l, beyond rd m l = Ok false -> (length l = 1%nat \/ length l = 3%nat) /\ forall p, l = [p] -> forall x d, In x (coords p) -> In d (coords rd) -> x <= d - m).
  { intros l Hl. destruct l as [|p [|q [|r [|s l]]]]; try discriminate; cbn [beyond] in Hl.
    - split; [now left|]. intros p' Ep x d Ix Id. injection Ep as <-. apply (f_equal (fun r => match r with Ok b => b | _ => true end)) in Hl. change (existsb (fun x => existsb (fun d => ltb (d - m) x) (coords rd)) (coords p) = false) in Hl. pose proof (existsb_false _ _ Hl _ Ix) as Q. cbv beta in Q. now apply (existsb_false _ _ Q), ltb_false in Id.
    - split; [now right|]. intros p' Ep. discriminate. }
  destruct (BY _ EF) as [LD BD], (BY _ EG) as [LN BN]. split; [|split; [exact LD|split; [exact LN|split]]].
  - apply Forall_forall. intros p I. destruct (NR _ E2 p I) as (A1 & A2 & A3). apply (existsb_false _ _ E1) in I. pose proof (existsb_false _ _ I) as Q. cbn [combine coords] in Q.
    unfold away. pose proof (Q (px p, px rd) ltac:(cbn; tauto)) as Q1. pose proof (Q (py p, py rd) ltac:(cbn; tauto)) as Q2. pose proof (Q (pz p, pz rd) ltac:(cbn; tauto)) as Q3. cbn [fst snd] in *. apply ltb_false in Q1, Q2, Q3. lra.
  - intros p I. apply in_app_iff in I. destruct I as [I|I]; [exact (NR _ E3 p I)|exact (NR _ E4 p I)].
  - intros p [-> | ->]; eauto.
Qed.

(** ** attempts *)
Lemma attempt_ok fuel mi c d D N S : attempt fuel mi c d = Ok (Some (D, N, S)) ->
  exists c0 arrays,
    points mi (d_az d) (d_el d) (d_x d) (d_y d) (t_rd c) 0 0 (d_D d) (t_nD c) (t_sp c) [] 0 = Ok (Some D) /\
    points mi (d_az d) (d_el d) (d_x d) (d_y d) (t_rd c) 0 0 (d_N d) (t_nN c) (t_sp c) [] 0 = Ok (Some N) /\
    (let centre := match t_kind c with RandomTop => c0 | VertTop => V (px c0) (py c0) 0 end in
     mapM (fun kc => let '(k, (M, (w, ch))) := kc in
             array_pos fuel (t_geo c) ch (node_centre centre (circ_radius c centre (d_r d)) (length (t_Mk c)) k (t_wiggle c) w) M (t_sep c) true)
          (combine (seq 0 (length (t_Mk c))) (combine (t_Mk c) (combine (d_w d) (d_ch d)))) = Ok arrays /\
     match t_kind c with RandomTop => rotate_yx centre (concat arrays) | VertTop => Ok (concat arrays) end = Ok S) /\
    rejected (t_rd c) (t_m c) S D N = Ok false.
Proof.
  unfold attempt. destruct (_ || _); [discriminate|]. cbv zeta. intros H. apply bind_ok in H. destruct H as ([D'|] & ED & H); [|discriminate].
  apply bind_ok in H. destruct H as ([N'|] & EN & H); [|discriminate]. apply bind_ok in H. destruct H as ([C|] & EC & H); [|discriminate].
  apply bind_ok in H. destruct H as (c0 & Eg & H). apply bind_ok in H. destruct H as (arrays & EA & H). apply bind_ok in H. destruct H as (S' & ES & H).
  apply bind_ok in H. destruct H as ([|] & ER & H); [discriminate|]. injection H as -> -> ->. exists c0, arrays. auto.
Qed.
Lemma spinning_ok fuel mi c draws left : forall k r, spinning_top fuel mi c draws left k = Ok r -> exists i, attempt fuel mi c (draws i) = Ok (Some r).
Proof.
  induction left as [|left IH]; intros k r H; cbn [spinning_top] in H; [discriminate|]. apply bind_ok in H. destruct H as ([x|] & E & H); [injection H as <-; eauto|eauto].
Qed.

(** ** means *)
Lemma mean_ge l m : l <> [] -> (forall s, In s l -> m <= pz s) -> m <= pz (vmean l).
Proof.
  intros Hl H. pose proof (len_pos l Hl) as P. unfold vmean. cbn [vscale pz]. apply Rmult_le_reg_l with (INR (length l)); [exact P|]. rewrite <- Rmult_assoc, Rinv_r, Rmult_1_l by lra.
  clear Hl P. induction l as [|s l IH]; cbn [fold_right vadd pz length]; [cbn; lra|]. rewrite S_INR. pose proof (H s (or_introl eq_refl)). specialize (IH ltac:(intros q Hq; apply H; now right)). lra.
Qed.
Lemma mean_z l z : l <> [] -> (forall s, In s l -> pz s = z) -> pz (vmean l) = z.
Proof.
  intros Hl H. pose proof (len_pos l Hl) as P. unfold vmean. cbn [vscale pz]. apply Rmult_eq_reg_l with (INR (length l)); [|lra]. rewrite <- Rmult_assoc, Rinv_r, Rmult_1_l by lra.
  clear Hl P. induction l as [|s l IH]; cbn [fold_right vadd pz length]; [cbn; lra|]. rewrite S_INR. pose proof (H s (or_introl eq_refl)). specialize (IH ltac:(intros q Hq; apply H; now right)). lra.
Qed.
Lemma array_mean fuel g ch c M sep l : rotation (ch_lin ch) -> rotation (ch_rot ch) -> (1 <= M)%nat -> g = Linear \/ g = Grid3d /\ (M <= 5)%nat ->
  array_pos fuel g ch c M sep true = Ok l -> l <> [] /\ pz (vmean l) = pz c.
Proof.
  intros HL HR HM HG H. unfold array_pos in H. apply bind_ok in H. destruct H as (l0 & E & H). injection H as <-.
  assert (K : l0 <> [] /\ pz (vmean l0) = pz c).
  { destruct HG as [->|[-> H5]].
    - injection E as <-. split; [|now rewrite linear_mean]. intros E. apply (f_equal (@length vec)) in E. rewrite linear_length in E. cbn in E. lia.
    - rewrite grid_ok in E by lia. injection E as <-. assert (N0 : map (gp c sep) (firstn M grid_order) <> []) by (destruct M; [lia|discriminate]). split; [exact N0|]. apply mean_z; [exact N0|].
      intros s I. apply in_map_iff in I. destruct I as (j & <- & Hj). assert (Hj5 : In j (firstn 5 grid_order)).
      { replace 5%nat with (M + (5 - M))%nat by lia. rewrite <- (firstn_skipn M grid_order). rewrite firstn_app. apply in_app_iff. left. rewrite firstn_firstn. replace (Nat.min (M + (5 - M)) M) with M by lia. exact Hj. }
      cbn in Hj5. unfold gp. cbn [pz]. destruct Hj5 as [<-|[<-|[<-|[<-|[<-|[]]]]]]; match goal with |- context[offz ?j] => change (offz j) with 0%Z end; ring. }
  destruct K as [K1 K2]. split; [destruct l0; [congruence|discriminate]|]. now rewrite rotate_mean.
Qed.

(** ** the circle *)
Lemma chord centre r n i j : distance (node_centre centre r n i 0 vzero) (node_centre centre r n j 0 vzero)
  = sqrt (r * r * (2 - 2 * cos (INR i * (2 * PI / INR n) - INR j * (2 * PI / INR n)))).
Proof.
  unfold node_centre. destruct (Req_EM_T 0 0); [|congruence]. unfold distance, norm. f_equal. unfold dot. cbn [vsub px py pz]. set (a := INR i * _). set (b := INR j * _). rewrite cos_minus.
  pose proof (sin2_cos2 a) as A. pose proof (sin2_cos2 b) as B. unfold Rsqr in *. nsatz.
Qed.
Lemma cos_far x : PI / 3 <= x <= 2 * PI - PI / 3 -> cos x <= / 2.
Proof.
  intros H. pose proof PI_RGT_0. pose proof cos_PI3 as C3. destruct (Rle_dec x PI) as [L|L].
  - replace (/ 2) with (cos (PI / 3)) by (rewrite C3; field). destruct (Req_dec x (PI / 3)) as [->|N]; [lra|]. apply Rlt_le, cos_decreasing_1; lra.
  - replace (cos x) with (cos (2 * PI - x)). { replace (/ 2) with (cos (PI / 3)) by (rewrite C3; field). destruct (Req_dec (2 * PI - x) (PI / 3)) as [->|N]; [lra|]. apply Rlt_le, cos_decreasing_1; lra. }
    rewrite <- (cos_neg (2 * PI - x)). replace (- (2 * PI - x)) with (x - 2 * PI) by ring. rewrite cos_minus, cos_2PI, sin_2PI. ring.
Qed.
