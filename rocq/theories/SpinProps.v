(** C80: 'spinning top' layouts. *)
From Verif Require Import Base BaseFacts Layout LayoutSpec LayoutFacts Spin SpinSpec SpinFacts.
From Coq Require Import Reals Lra.
Local Open Scope R_scope.

(** Points drawn on a line are as many as asked for, on the line, and no two closer than the
    spacing; without a spacing, they are at the distance asked for from the walls. *)
Theorem C80_points mi az el m maxR rd ox oy draw n sp l : points mi az el m maxR rd ox oy draw n sp [] 0 = Ok (Some l) ->
  length l = n /\ Forall (on_line az el ox oy) l /\
  (forall s, sp = Some s -> 0 < s -> spaced s l) /\
  ((forall s, sp = Some s -> s <= 0) \/ (n <= 1)%nat -> Forall (away rd m) l).
Proof.
  intros H. destruct (points_line _ _ _ _ _ _ _ _ _ _ _ _ _ _ H ltac:(constructor)) as [A B]. split; [exact B|]. split; [exact A|]. split.
  - intros s -> Hs. eapply points_spaced; [exact Hs|exact H|]. intros i j Hij. cbn in Hij. lia.
  - intros C. eapply points_inside; [exact H|constructor|]. destruct C as [C|C]; [now left|right; cbn; lia].
Qed.

(** A single point is the first one drawn that is far enough from the walls; there is none
    if that does not happen within the number of attempts. *)
Theorem C80_first_inside mi az el m maxR rd ox oy draw sp :
  let p t := V ((m + (maxR - m - m) * draw t) * cos az * sin el + ox) ((m + (maxR - m - m) * draw t) * sin az * sin el + oy) ((m + (maxR - m - m) * draw t) * cos el) in
  (forall k, (k < mi)%nat -> (forall i, (i < k)%nat -> ~ away rd m (p i)) -> away rd m (p k) -> points mi az el m maxR rd ox oy draw 1 sp [] 0 = Ok (Some [p k])) /\
  ((forall i, (i < mi)%nat -> ~ away rd m (p i)) -> points mi az el m maxR rd ox oy draw 1 sp [] 0 = Ok None).
Proof.
  intros p. split.
  - intros k Hk Hb Ha. cbn [points]. rewrite (inside_first az el m maxR rd ox oy draw k mi 0 Hk Hb Ha). reflexivity.
  - intros Hb. cbn [points]. rewrite (inside_none az el m maxR rd ox oy draw mi 0 Hb). reflexivity.
Qed.
(** As the code stands, a point that is drawn again for the sake of the spacing can be
    outside the room. *)
Theorem C80_points_refuted : exists mi draw l p, (forall t, 0 <= draw t <= 1) /\
  points mi 0 (PI / 2) 0 4 (V 2 2 2) 0 0 draw 2 (Some 1) [] 0 = Ok (Some l) /\ In p l /\ px p = 4.
Proof.
  set (draw := fun t : nat => match t with 0%nat | 1%nat => / 4 | _ => 1 end).
  assert (P : forall u, line_point 0 (PI / 2) 0 4 0 0 u = V (4 * u) 0 0).
  { intros u. unfold line_point. rewrite cos_0, sin_0, sin_PI2, cos_PI2. vec. }
  assert (F : forall a b, b <= a -> ltb a b = false) by (intros; now apply ltb_false). assert (T : forall a b, a < b -> ltb a b = true) by (intros; now apply ltb_true).
  assert (O1 : outside 0 (V 2 2 2) (V (4 * / 4) 0 0) = false) by (apply outside_away; unfold away; cbn [px py pz]; lra).
  exists 2%nat, draw, [V (4 * / 4) 0 0; V (4 * 1) 0 0], (V (4 * 1) 0 0). split; [intros [|[|t]]; cbn; lra|]. split; [|split; [cbn; tauto|cbn [px]; ring]].
  assert (O2 : ltb (norm (vsub (V (4 * / 4) 0 0) (V (4 * / 4) 0 0))) 1 = true).
  { apply ltb_true. replace (vsub _ _) with (V 0 0 0) by vec. rewrite norm_x, Rabs_R0. lra. }
  assert (O3 : ltb (norm (vsub (V (4 * / 4) 0 0) (V (4 * 1) 0 0))) 1 = false).
  { apply ltb_false. replace (vsub _ _) with (V (- 3) 0 0) by (vec; field). rewrite norm_x, Rabs_left; lra. }
  unfold points. cbn [draw_inside]. rewrite !P. change (draw 0%nat) with (/ 4). change (draw 1%nat) with (/ 4). rewrite !O1. rewrite (T 0 1) by lra.
  rewrite !P. change (draw 1%nat) with (/ 4). rewrite !O1. cbn [draw_spaced existsb]. rewrite O2. cbn [orb]. rewrite P. change (draw 2%nat) with 1. rewrite O3. reflexivity.
Qed.

(** Sensors of an accepted layout are at the distance asked for from all walls; sources are
    as many as asked for, and a single one is also at that distance. *)
Theorem C80_accepted fuel mi c draws tries D N S : spinning_top fuel mi c draws tries 0 = Ok (D, N, S) ->
  Forall (away (t_rd c) (t_m c)) S /\ length D = t_nD c /\ length N = t_nN c /\
  (t_nD c = 1%nat -> Forall (away (t_rd c) (t_m c)) D) /\ (t_nN c = 1%nat -> Forall (away (t_rd c) (t_m c)) N).
Proof.
  intros H. apply spinning_ok in H. destruct H as (i & H). apply attempt_ok in H. destruct H as (c0 & arrays & HD & HN & _ & HR). apply rejected_false in HR. destruct HR as (A & _ & _ & L & B).
  apply points_line in HD; [|constructor]. apply points_line in HN; [|constructor]. destruct HD as [_ HD], HN as [_ HN]. cbn in HD, HN.
  split; [exact A|]. split; [exact HD|]. split; [exact HN|].
  assert (K : forall l, (D = l \/ N = l) -> length l = 1%nat -> Forall (away (t_rd c) (t_m c)) l).
  { intros l Hl L1. destruct l as [|p [|q l]]; try discriminate. constructor; [|constructor]. assert (I : In p (D ++ N)) by (apply in_app_iff; destruct Hl as [-> | ->]; cbn; tauto).
    destruct (L p I) as (L1' & L2 & L3). pose proof (B p Hl) as Q. unfold away.
    pose proof (Q (px p) (px (t_rd c)) ltac:(cbn; tauto) ltac:(cbn; tauto)). pose proof (Q (py p) (py (t_rd c)) ltac:(cbn; tauto) ltac:(cbn; tauto)). pose proof (Q (pz p) (pz (t_rd c)) ltac:(cbn; tauto) ltac:(cbn; tauto)). lra. }
  split; intros E; apply K; auto; congruence.
Qed.

(** The array of all nodes is rotated rigidly, its horizontal plane through the centre of the
    circle becoming the plane perpendicular to the direction of that centre. *)
Theorem C80_perpendicular t l l' : rotate_yx t l = Ok l' -> length l' = length l /\
  (forall i, (i < length l)%nat -> dot (vsub (nth i l' vzero) t) t = norm t * (pz (nth i l vzero) - pz t)) /\
  forall i j, (i < length l)%nat -> (j < length l)%nat -> distance (nth i l' vzero) (nth j l' vzero) = distance (nth i l vzero) (nth j l vzero).
Proof.
  intros H. apply rotate_yx_ok in H. destruct H as (f & Hf & Hz & ->). split; [apply map_length|].
  assert (N : forall i, (i < length l)%nat -> nth i (map (fun p => vadd (f (vsub p t)) t) l) vzero = vadd (f (vsub (nth i l vzero) t)) t) by (intros i Hi; now rewrite (nth_map_in _ _ _ _ vzero)).
  split.
  - intros i Hi. rewrite N by exact Hi. replace (vsub (vadd (f (vsub (nth i l vzero) t)) t) t) with (f (vsub (nth i l vzero) t)) by vec. rewrite Hz. reflexivity.
  - intros i j Hi Hj. rewrite !N by assumption. unfold distance. replace (vsub (vadd _ t) (vadd _ t)) with (f (vsub (nth i l vzero) (nth j l vzero))); [now apply rot_norm|].
    replace (vsub (nth i l vzero) (nth j l vzero)) with (vsub (vsub (nth i l vzero) t) (vsub (nth j l vzero) t)) by vec. rewrite (rot_sub f _ _ Hf). vec.
Qed.

(** Up to six nodes, none are closer to each other than the distance asked for. *)
Theorem C80_inter_node c centre u n i j : 0 <= circ_min c -> 0 <= u -> (n <= 6)%nat -> (i < j < n)%nat ->
  circ_min c <= distance (node_centre centre (circ_radius c centre u) n i 0 vzero) (node_centre centre (circ_radius c centre u) n j 0 vzero).
Proof.
  intros Hm Hu Hn Hij. rewrite chord. set (r := circ_radius c centre u).
  assert (Hr : circ_min c <= r). { unfold r, circ_radius. cbv zeta. match goal with |- context[ltb ?a (circ_min c)] => destruct (ltb a (circ_min c)) eqn:E end; [lra|]. apply ltb_false in E. nra. }
  set (d := INR (j - i) * (2 * PI / INR n)). replace (INR i * (2 * PI / INR n) - INR j * (2 * PI / INR n)) with (- d) by (unfold d; rewrite minus_INR by lia; ring). rewrite cos_neg.
  assert (C : cos d <= / 2).
  { apply cos_far. pose proof PI_RGT_0. assert (0 < INR n) by (apply lt_0_INR; lia). assert (INR n <= 6) by (replace 6 with (INR 6) by (cbn; ring); apply le_INR; lia).
    assert (1 <= INR (j - i)) by (apply (le_INR 1); lia). assert (INR (j - i) <= INR n - 1). { assert (INR (S (j - i)) <= INR n) by (apply le_INR; lia). rewrite S_INR in *. lra. }
    assert (E : d * INR n = 2 * PI * INR (j - i)) by (unfold d; field; lra).
    split; apply Rmult_le_reg_r with (INR n); try assumption; nra. }
  eapply Rle_trans; [exact Hr|]. rewrite <- (sqrt_square r) at 1 by lra. apply sqrt_le_1_alt. nra.
Qed.

(** ** As the code stands *)

(** With more nodes, neighbours are closer to each other than asked for whenever the smallest
    circle is used. *)
Theorem C80_inter_node_refuted c centre n i : 0 < circ_min c -> (7 <= n)%nat ->
  distance (node_centre centre (circ_min c) n i 0 vzero) (node_centre centre (circ_min c) n (S i) 0 vzero) < circ_min c.
Proof.
  intros Hm Hn. rewrite chord. rewrite S_INR. set (d := 2 * PI / INR n). replace (INR i * d - (INR i + 1) * d) with (- d) by ring. rewrite cos_neg.
  assert (C : / 2 < cos d).
  { pose proof PI_RGT_0. assert (7 <= INR n) by (replace 7 with (INR 7) by (cbn; ring); apply le_INR; lia). assert (E : d * INR n = 2 * PI) by (unfold d; field; lra).
    assert (0 < d) by (unfold d; apply Rdiv_lt_0_compat; lra). replace (/ 2) with (cos (PI / 3)) by (rewrite cos_PI3; field). apply cos_decreasing_1; nra. }
  apply Rlt_le_trans with (sqrt (circ_min c * circ_min c)); [|rewrite sqrt_square; lra]. apply sqrt_lt_1_alt. pose proof (COS_bound d). assert (0 < circ_min c * circ_min c) by nra.
  set (q := circ_min c * circ_min c) in *. split; nra.
Qed.

(** The line of the sources goes through a corner of the room, whatever the offset drawn for
    it. *)
Theorem C80_offset_refuted fuel mi c draws tries D N S : spinning_top fuel mi c draws tries 0 = Ok (D, N, S) ->
  exists dir, forall p, In p (D ++ N) -> exists r, p = vscale r dir.
Proof.
  intros H. apply spinning_ok in H. destruct H as (i & H). apply attempt_ok in H. destruct H as (c0 & arrays & HD & HN & _).
  apply points_line in HD; [|constructor]. apply points_line in HN; [|constructor]. destruct HD as [HD _], HN as [HN _]. rewrite Forall_forall in HD, HN.
  exists (V (cos (d_az (draws i)) * sin (d_el (draws i))) (sin (d_az (draws i)) * sin (d_el (draws i))) (cos (d_el (draws i)))).
  intros p I. assert (P : on_line (d_az (draws i)) (d_el (draws i)) 0 0 p) by (apply in_app_iff in I; destruct I; auto). destruct P as [r ->]. exists r. vec.
Qed.

(** Layouts exist only for one or three sources of each kind. *)
Theorem C80_numbers_refuted fuel mi c draws tries D N S : spinning_top fuel mi c draws tries 0 = Ok (D, N, S) ->
  (t_nD c = 1%nat \/ t_nD c = 3%nat) /\ (t_nN c = 1%nat \/ t_nN c = 3%nat).
Proof.
  intros H. pose proof (C80_accepted _ _ _ _ _ _ _ _ H) as (_ & E1 & E2 & _). apply spinning_ok in H. destruct H as (i & H). apply attempt_ok in H. destruct H as (c0 & arrays & _ & _ & _ & HR).
  apply rejected_false in HR. destruct HR as (_ & A & B & _). rewrite <- E1, <- E2. auto.
Qed.

(** A single source never has a coordinate beyond the smallest dimension of the room. *)
Theorem C80_one_source_refuted fuel mi c draws tries p N S x d : spinning_top fuel mi c draws tries 0 = Ok ([p], N, S) ->
  In x [px p; py p; pz p] -> In d [px (t_rd c); py (t_rd c); pz (t_rd c)] -> x <= d - t_m c.
Proof.
  intros H. apply spinning_ok in H. destruct H as (i & H). apply attempt_ok in H. destruct H as (c0 & arrays & _ & _ & _ & HR).
  apply rejected_false in HR. destruct HR as (_ & _ & _ & _ & B). intros Ix Id. exact (B p (or_introl eq_refl) x d Ix Id).
Qed.

(** With three sources, a source above the ceiling is accepted in every room that is wider
    than high. *)
Theorem C80_three_sources_refuted rd m : 2 * m <= pz rd -> pz rd < px rd -> 2 * m <= py rd -> exists D N,
  length D = 3%nat /\ (exists p, In p D /\ ~ away rd m p) /\ forall S, Forall (away rd m) S -> rejected rd m S D N = Ok false.
Proof.
  intros Hz Hx Hy. set (z := (px rd + pz rd) / 2 - m). exists [V m m z; V m m m; V m m m], [V m m m]. split; [reflexivity|]. split.
  - exists (V m m z). split; [now left|]. unfold away, z. cbn [px py pz]. lra.
  - intros S HS. rewrite Forall_forall in HS. assert (F : forall a b, b <= a -> ltb a b = false) by (intros; now apply ltb_false). unfold rejected.
    assert (E1 : existsb (fun p => existsb (fun xd => ltb (snd xd - m) (fst xd)) (combine (coords p) (coords rd))) S = false).
    { induction S as [|s S IH]; [reflexivity|]. cbn [existsb]. rewrite IH by (intros q Hq; apply HS; now right). destruct (HS s (or_introl eq_refl)) as (A & B & C). unfold coords. cbn [combine existsb fst snd]. now rewrite !F by lra. }
    assert (E2 : near m S = false).
    { unfold near. clear E1. induction S as [|s S IH]; [reflexivity|]. cbn [existsb]. rewrite IH by (intros q Hq; apply HS; now right). destruct (HS s (or_introl eq_refl)) as (A & B & C). unfold coords. cbn [existsb]. now rewrite !F by lra. }
    rewrite E1, E2. unfold near, beyond, coords, z. cbn [orb existsb combine fst snd px py pz bind]. rewrite !F by lra. reflexivity.
Qed.

(** Layouts with a vertical line can never be generated, unless the wiggle reaches the
    distance to the walls (linear arrays, or grids of up to five sensors): all nodes are on
    the floor. *)
Theorem C80_vertical_refuted fuel mi c draws tries M D N S : t_kind c = VertTop -> nth_error (t_Mk c) 0 = Some M -> (1 <= M)%nat ->
  t_geo c = Linear \/ t_geo c = Grid3d /\ (M <= 5)%nat -> 0 <= t_wiggle c < t_m c ->
  (forall k, length (d_w (draws k)) = length (t_Mk c) /\ length (d_ch (draws k)) = length (t_Mk c) /\ Forall unit (d_w (draws k)) /\
             Forall (fun ch => rotation (ch_lin ch) /\ rotation (ch_rot ch)) (d_ch (draws k))) ->
  spinning_top fuel mi c draws tries 0 <> Ok (D, N, S).
Proof.
  intros HK HM H1 HG HW HD H. apply spinning_ok in H. destruct H as (i & H). apply attempt_ok in H. destruct H as (c0 & arrays & _ & _ & [HA HS] & HR). rewrite HK in HA, HS. cbv zeta in HA. injection HS as <-.
  apply rejected_false in HR. destruct HR as (A & _). rewrite Forall_forall in A. destruct (HD i) as (L1 & L2 & U & R). rewrite Forall_forall in U, R.
  set (centre := V (px c0) (py c0) 0) in *. set (r := circ_radius c centre (d_r (draws i))) in *.
  destruct (t_Mk c) as [|M0 Mk] eqn:EM; [discriminate|]. cbn in HM. injection HM as ->. destruct (d_w (draws i)) as [|w ws]; [discriminate|]. destruct (d_ch (draws i)) as [|ch chs]; [discriminate|].
  cbn [length seq combine mapM] in HA. apply bind_ok in HA. destruct HA as (l & El & HA). apply bind_ok in HA. destruct HA as (ls & _ & HA). injection HA as <-.
  destruct (R ch (or_introl eq_refl)) as [R1 R2]. destruct (array_mean _ _ _ _ _ _ _ R1 R2 H1 HG El) as [Nl Ml].
  assert (Q : t_m c <= pz (vmean l)). { apply mean_ge; [exact Nl|]. intros s Hs. apply (A s). cbn [concat]. apply in_app_iff. now left. }
  rewrite Ml in Q. destruct (U w (or_introl eq_refl)) as (_ & _ & Uz). unfold node_centre in Q. destruct (Req_EM_T (t_wiggle c) 0) as [E|E]; unfold centre in Q; cbn [vadd px py pz] in Q; nra.
Qed.

(** ** Two points on an axis, four nodes on a circle *)
Example C80_ex_points : exists mi draw l, points mi 0 (PI / 2) 0 4 (V 5 5 5) 0 0 draw 2 (Some 1) [] 0 = Ok (Some l).
Proof.
  assert (P : forall u, line_point 0 (PI / 2) 0 4 0 0 u = V (4 * u) 0 0).
  { intros u. unfold line_point. rewrite cos_0, sin_0, sin_PI2, cos_PI2. vec. }
  set (draw := fun t : nat => match t with 0%nat => / 4 | _ => 1 end). exists 1%nat, draw, [V (4 * / 4) 0 0; V (4 * 1) 0 0]. unfold points. cbn [draw_inside]. rewrite !P. change (draw 0%nat) with (/ 4).
  replace (outside 0 (V 5 5 5) (V (4 * / 4) 0 0)) with false by (symmetry; apply outside_away; unfold away; cbn [px py pz]; lra). rewrite !P. change (draw 1%nat) with 1.
  replace (outside 0 (V 5 5 5) (V (4 * 1) 0 0)) with false by (symmetry; apply outside_away; unfold away; cbn [px py pz]; lra).
  replace (ltb 0 1) with true by (symmetry; apply ltb_true; lra). cbn [draw_spaced existsb].
  replace (ltb (norm (vsub (V (4 * / 4) 0 0) (V (4 * 1) 0 0))) 1) with false; [reflexivity|].
  symmetry. apply ltb_false. replace (vsub _ _) with (V (- 3) 0 0) by (vec; field). rewrite norm_x, Rabs_left; lra.
Qed.
Example C80_ex_rotate : exists l', rotate_yx (V 1 0 0) [V 1 0 1] = Ok l'.
Proof.
  unfold rotate_yx. rewrite norm_x. rewrite Rabs_pos_eq by lra. destruct (Req_EM_T 1 0); [lra|]. destruct (Req_EM_T _ 0) as [E|_]; [|eauto]. exfalso.
  replace (cross (V 0 0 1) (vscale (/ 1) (V 1 0 0))) with (V 0 1 0) in E by (unfold cross; vec; cbn [vscale px py pz]; field). unfold norm, dot in E. cbn [px py pz] in E. replace (0 * 0 + 1 * 1 + 0 * 0) with 1 in E by ring. rewrite sqrt_1 in E. lra.
Qed.

(** one node of one sensor around the diagonal of a room of 10 m, one source of each kind *)
Definition c80_top : top := mkT RandomTop (V 10 10 10) 0 1 1 None (Some 1) Grid3d (/ 10) [1%nat] 0.
Definition c80_draws : tdraws := mkD 0 4 0 (PI / 4) (fun _ => / 2) (fun _ => / 2) (fun _ => / 2) 0 [vzero] [mkC (fun v => v) (fun _ => vzero) (fun v => v)].
Example C80_ex_top : exists D N S, spinning_top 0 1 c80_top (fun _ => c80_draws) 1 0 = Ok (D, N, S).
Proof.
  set (h := sin (PI / 4)). assert (Hc : cos (PI / 4) = h) by (unfold h; now rewrite sin_PI4, cos_PI4). assert (H2 : h * h + h * h = 1) by (pose proof (sin2_cos2 (PI / 4)) as Q; unfold Rsqr in Q; rewrite Hc in Q; exact Q).
  assert (H0 : 0 < h) by (unfold h; apply sin_gt_0; pose proof PI_RGT_0; lra). assert (H1 : h < 1) by nra. set (p := V (2 * h) 0 (2 * h)).
  assert (P : line_point 0 (PI / 4) 0 4 0 0 (/ 2) = p) by (unfold line_point, p; rewrite cos_0, sin_0, Hc; fold h; vec; field).
  assert (A : away (V 10 10 10) 0 p) by (unfold away, p; cbn [px py pz]; lra).
  assert (L : forall sp, points 1 0 (PI / 4) 0 4 (V 10 10 10) 0 0 (fun _ => / 2) 1 sp [] 0 = Ok (Some [p])).
  { intros sp. unfold points. cbn [draw_inside]. rewrite P. apply outside_away in A. now rewrite A. }
  assert (F : forall a b, b <= a -> ltb a b = false) by (intros; now apply ltb_false). assert (T : forall a b, a < b -> ltb a b = true) by (intros; now apply ltb_true).
  assert (Np : norm p = 2). { unfold norm, p, dot. cbn [px py pz]. replace (2 * h * (2 * h) + 0 * 0 + 2 * h * (2 * h)) with (2 * 2) by nra. apply sqrt_square. lra. }
  assert (R1 : circ_radius c80_top p 0 = 1).
  { unfold circ_radius. cbn [c80_top t_kind t_rd t_m]. change (circ_min c80_top) with 1. rewrite Np. rewrite (T 2 (norm (V 10 10 10) / 2)).
    - rewrite (T _ 1) by lra. reflexivity.
    - destruct (norm_coord (V 10 10 10)) as (Q & _). cbn [px] in Q. rewrite Rabs_pos_eq in Q by lra. lra. }
  assert (S1 : exists S, rotate_yx p [vadd p (V 1 0 0)] = Ok S /\ S = [V (3 * h) 0 h]).
  { unfold rotate_yx. rewrite Np. destruct (Req_EM_T 2 0); [lra|]. assert (Ev : cross (V 0 0 1) (vscale (/ 2) p) = V 0 h 0) by (unfold cross, p; vec; cbn [vscale px py pz]; field). rewrite Ev.
    assert (Nv : norm (V 0 h 0) = h). { unfold norm, dot. cbn [px py pz]. replace (0 * 0 + h * h + 0 * 0) with (h * h) by ring. apply sqrt_square. lra. } rewrite Nv. destruct (Req_EM_T h 0); [lra|].
    eexists. split; [reflexivity|]. cbn [map]. f_equal. replace (dot (V 0 0 1) (vscale (/ 2) p)) with h by (unfold dot, p; cbn [vscale px py pz]; field). unfold cross, p. apply vec_eq; cbn [vadd vsub vscale px py pz]; field; lra. }
  destruct S1 as (S & ES & VS). exists [p], [p], S. unfold spinning_top, attempt. cbn [c80_top c80_draws t_kind t_rd t_m t_nD t_nN t_sp t_geo t_sep t_Mk t_wiggle d_x d_y d_az d_el d_D d_N d_C d_r d_w d_ch]. change (circ_min _) with 1.
  cbn [px py pz]. rewrite !F by lra. cbn [orb]. rewrite !L. cbn [bind get nth_error]. fold c80_top. change (mkT RandomTop (V 10 10 10) 0 1 1 None (Some 1) Grid3d (/ 10) [1%nat] 0) with c80_top. rewrite R1. cbn [length seq combine mapM].
  assert (EN : node_centre p 1 1 0 0 vzero = vadd p (V 1 0 0)).
  { unfold node_centre. destruct (Req_EM_T 0 0); [|congruence]. cbn [INR]. rewrite Rmult_0_l, cos_0, sin_0. apply vec_eq; cbn [vadd px py pz]; ring. }
  rewrite EN. unfold array_pos. rewrite grid_ok by lia. cbn [bind map firstn grid_order atomic app ch_rot]. set (q := gp _ _ 13).
  assert (Eq : q = vadd p (V 1 0 0)) by (unfold q, gp; apply vec_eq; cbn [px py pz]; match goal with |- context[IZR (?f 13%nat)] => let z := constr:(f 13%nat) in let z' := eval vm_compute in z in change z with z' end; ring).
  replace (rotate (fun v => v) [q]) with [vadd p (V 1 0 0)] by (unfold rotate, vmean; cbn [map length fold_right INR]; f_equal; rewrite Eq; vec; field). cbn [bind concat app]. rewrite ES. cbn [bind]. rewrite VS.
  unfold rejected, near, beyond, coords, p. cbn [orb existsb combine fst snd px py pz bind]. rewrite !F by lra. reflexivity.
Qed.

Print Assumptions C80_points.
Print Assumptions C80_points_refuted.
Print Assumptions C80_accepted.
Print Assumptions C80_perpendicular.
Print Assumptions C80_inter_node.
Print Assumptions C80_inter_node_refuted.
Print Assumptions C80_offset_refuted.
Print Assumptions C80_numbers_refuted.
Print Assumptions C80_one_source_refuted.
Print Assumptions C80_three_sources_refuted.
Print Assumptions C80_vertical_refuted.
