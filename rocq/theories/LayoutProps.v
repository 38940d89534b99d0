(** C79: random layouts keep sources, nodes and sensors where they are asked for. *)
From Verif Require Import Base BaseFacts Layout LayoutSpec LayoutFacts.
From Coq Require Import Reals Lra.
Local Open Scope R_scope.

(** Sensors of a linear array are on a line through the node, its centre, equally spaced, and
    none is farther from the node than half their number times the distance asked for. *)
Theorem C79_linear fuel ch c M sep l : rotation (ch_lin ch) -> 0 <= sep -> (2 <= M)%nat ->
  array_pos fuel Linear ch c M sep false = Ok l ->
  length l = M /\ vmean l = c /\ (forall s, In s l -> distance s c <= INR M * sep / 2) /\
  forall i j, (i < j < M)%nat -> distance (nth i l vzero) (nth j l vzero) = INR (j - i) * (INR M * sep / INR (M - 1)).
Proof.
  intros HR Hs HM H. injection H as <-. split; [apply linear_length|]. split; [apply linear_mean; [exact HR|lia]|]. split; [intros s; now apply linear_reach|].
  intros i j Hij. rewrite linear_distance by (lia || exact HR). unfold step. rewrite (minus_INR j i) by lia. assert (0 < INR (M - 1)) by (apply lt_0_INR; lia).
  assert (0 <= INR M * sep / INR (M - 1)). { apply Rmult_le_pos; [apply Rmult_le_pos; [apply pos_INR|exact Hs]|apply Rlt_le, Rinv_0_lt_compat; assumption]. }
  rewrite (Rabs_pos_eq (INR M * sep / INR (M - 1))) by assumption. f_equal. assert (INR i <= INR j) by (apply le_INR; lia). rewrite Rabs_left1; lra.
Qed.

(** As the code stands, the spacing is not the distance asked for but larger, whatever the
    number of sensors. *)
Theorem C79_spacing_refuted fuel ch c M sep l i : rotation (ch_lin ch) -> 0 < sep -> (S i < M)%nat ->
  array_pos fuel Linear ch c M sep false = Ok l -> sep < distance (nth i l vzero) (nth (S i) l vzero).
Proof.
  intros HR Hs HM H. destruct (C79_linear fuel ch c M sep l HR ltac:(lra) ltac:(lia) H) as (_ & _ & _ & D). rewrite D by lia.
  replace (S i - i)%nat with 1%nat by lia. cbn [INR]. rewrite minus_INR by lia. cbn [INR]. assert (1 < INR M) by (apply (lt_INR 1); lia).
  apply Rmult_lt_reg_r with (INR M - 1); [lra|]. replace (1 * (INR M * sep / (INR M - 1)) * (INR M - 1)) with (INR M * sep) by (field; lra). nra.
Qed.

(** Sensors of type 'radius' are within the radius of the node (in the cube of that size
    around it). *)
Theorem C79_radius fuel ch c M sep l s : (forall n, unit (ch_pts ch n)) -> 0 <= sep ->
  array_pos fuel Radius ch c M sep false = Ok l -> In s l -> length l = M /\ within (sep / 2) s c /\ distance s c <= sep.
Proof.
  intros HU Hs H I. unfold array_pos in H. apply bind_ok in H. destruct H as (l' & E & H). injection H as <-. destruct (radius_ok _ _ _ _ _ HU Hs _ _ E) as [L W].
  split; [exact L|]. split; [now apply W|]. now apply within_distance; [apply W|].
Qed.

(** No two sensors are drawn together: with different draws they are in different places. *)
Theorem C79_radius_apart fuel ch c M sep l : (forall i j, ch_pts ch i = ch_pts ch j -> i = j) -> 0 < sep ->
  array_pos fuel Radius ch c M sep false = Ok l -> NoDup l.
Proof.
  intros HI Hs H. unfold array_pos in H. apply bind_ok in H. destruct H as (l' & E & H). injection H as <-. destruct (radius_at _ _ _ _ _ _ _ E) as (ix & _ & _ & ND & ->).
  apply FinFun.Injective_map_NoDup; [|exact ND]. intros i j Eij. apply HI. destruct (ch_pts ch i), (ch_pts ch j). unfold vsub, vadd, vscale in Eij. cbn [Layout.px Layout.py Layout.pz] in Eij. injection Eij as A B C. f_equal; nra.
Qed.

(** Grids have up to 27 sensors: the first one at the node, six at the distance asked for on
    the axes, no two closer to each other than that distance. *)
Theorem C79_grid fuel ch c M sep : 0 <= sep ->
  ((27 < M)%nat -> array_pos fuel Grid3d ch c M sep false = Err IndexError) /\
  ((M <= 27)%nat -> exists l, array_pos fuel Grid3d ch c M sep false = Ok l /\ length l = M /\
    ((0 < M)%nat -> nth 0 l vzero = c) /\
    (forall i, (0 < i < 7)%nat -> (i < M)%nat -> distance (nth i l vzero) c = sep) /\
    (forall s, In s l -> within sep s c) /\
    forall i j, (i < j < M)%nat -> sep <= distance (nth i l vzero) (nth j l vzero)).
Proof.
  intros Hs. unfold array_pos. split; [intros H; now rewrite grid_err|]. intros H. rewrite grid_ok by exact H. cbn [bind]. eexists. split; [reflexivity|].
  pose proof grid_order_ok as (ND & L & B). assert (LL : length (firstn M grid_order) = M) by (rewrite firstn_length; lia). split; [now rewrite map_length|].
  assert (N : forall i, (i < M)%nat -> nth i (map (gp c sep) (firstn M grid_order)) vzero = gp c sep (nth i grid_order 0%nat)).
  { intros i Hi. rewrite (nth_map_in _ _ _ _ 0%nat) by lia. f_equal. rewrite <- (firstn_skipn M grid_order) at 2. now rewrite app_nth1 by lia. }
  assert (BN : forall i, (i < M)%nat -> (nth i grid_order 0 < 27)%nat) by (intros i Hi; apply B, nth_In; lia).
  split; [|split; [|split]].
  - intros H0. rewrite N by exact H0. unfold gp. vec; match goal with |- context[IZR ?z] => let z' := eval vm_compute in z in change z with z' end; ring.
  - intros i Hi Hm. rewrite N by exact Hm. unfold distance, norm. transitivity (sqrt (Rsqr sep)); [|now apply sqrt_Rsqr]. f_equal. unfold Rsqr, dot, gp. cbn [vsub px py pz].
    destruct i as [|i]; [lia|]. do 6 (destruct i as [|i]; [repeat match goal with |- context[?f (nth ?i grid_order 0%nat)] => let z' := eval vm_compute in (f (nth i grid_order 0%nat)) in change (f (nth i grid_order 0%nat)) with z' end; ring|]). lia.
  - intros s I. apply in_map_iff in I. destruct I as (j & <- & Hj). apply gp_within; [|exact Hs]. apply B. rewrite <- (firstn_skipn M grid_order). apply in_app_iff. now left.
  - intros i j Hij. rewrite !N by lia. apply gp_far; [apply BN; lia|apply BN; lia| |exact Hs]. intros E. apply (proj1 (NoDup_nth grid_order 0%nat) ND) in E; lia.
Qed.

(** The random rotation keeps the centre of the array and all distances between sensors. *)
Theorem C79_rotation fuel g ch c M sep l : rotation (ch_rot ch) -> array_pos fuel g ch c M sep false = Ok l ->
  exists l', array_pos fuel g ch c M sep true = Ok l' /\ length l' = length l /\ (l <> [] -> vmean l' = vmean l) /\
    forall i j, (i < length l)%nat -> (j < length l)%nat -> distance (nth i l' vzero) (nth j l' vzero) = distance (nth i l vzero) (nth j l vzero).
Proof.
  intros HR H. unfold array_pos in *. apply bind_ok in H. destruct H as (l0 & E & H). injection H as <-. rewrite E. cbn [bind]. eexists. split; [reflexivity|].
  split; [unfold rotate; now rewrite map_length|]. split; [now apply rotate_mean|]. intros i j Hi Hj. now apply rotate_distance.
Qed.

(** Sources are never closer to a wall than asked for, and sensors never closer than that
    less the extent of their array: the sensors are in the room if the distance to the walls
    is at least the extent. *)
Theorem C79_random fuel rd m g sep Mk ud un uc ch D N S :
  2 * m <= px rd -> 2 * m <= py rd -> 2 * m <= pz rd -> 0 <= sep ->
  Forall unit ud -> Forall unit un -> Forall unit uc -> Forall (fun c => rotation (ch_lin c) /\ forall n, unit (ch_pts c n)) ch ->
  random_layout fuel false rd m g sep Mk ud un uc ch = Ok (D, N, S) ->
  length D = length ud /\ length N = length un /\ Forall (away rd m) D /\ Forall (away rd m) N /\
  forall k M l s, nth_error Mk k = Some M -> nth_error S k = Some l -> In s l ->
    away rd (m - reach g M sep) s.
Proof.
  intros X Y Z0 Hs UD UN UC UH H. unfold random_layout in H. apply bind_ok in H. destruct H as (S' & E & H). injection H as <- <- <-.
  rewrite !map_length. split; [reflexivity|]. split; [reflexivity|]. rewrite !Forall_forall in *.
  split; [intros p I; apply in_map_iff in I; destruct I as (u & <- & Hu); apply in_box_away; auto|].
  split; [intros p I; apply in_map_iff in I; destruct I as (u & <- & Hu); apply in_box_away; auto|].
  intros k M l s HM Hl I. assert (HK : (k < length (combine Mk (combine uc ch)))%nat). { apply mapM_length in E. rewrite <- E. apply nth_error_Some. congruence. }
  destruct (nth_error (combine Mk (combine uc ch)) k) as [[M' [u c]]|] eqn:Ec; [|apply nth_error_None in Ec; lia].
  destruct (mapM_nth _ _ _ k _ E Ec) as (l' & El & Al). assert (l' = l) by congruence. subst l'.
  assert (IC : In (u, c) (combine uc ch)) by (apply nth_error_In in Ec; now apply in_combine_r in Ec).
  pose proof (combine_first _ _ _ _ _ Ec) as EM. assert (M' = M) by congruence.
  subst M'. destruct (UH c (in_combine_r _ _ _ _ IC)) as [HR HU].
  apply within_away with (c := in_box rd m u); [|apply in_box_away; auto; apply UC; now apply in_combine_l in IC]. eapply array_within; eassumption.
Qed.

(** Nodes at the centre: sensors are at the centre of the room up to the extent of their
    array. *)
Theorem C79_centre fuel rd m g sep Mk ud un uc ch D N S : 0 <= sep ->
  Forall (fun c => rotation (ch_lin c) /\ forall n, unit (ch_pts c n)) ch ->
  random_layout fuel true rd m g sep Mk ud un uc ch = Ok (D, N, S) ->
  forall k M l s, nth_error Mk k = Some M -> nth_error S k = Some l -> In s l ->
    within (reach g M sep) s (vscale (/ 2) rd).
Proof.
  intros Hs UH H. unfold random_layout in H. apply bind_ok in H. destruct H as (S' & E & H). injection H as <- <- <-. rewrite Forall_forall in UH.
  intros k M l s HM Hl I. assert (HK : (k < length (combine Mk (combine uc ch)))%nat). { apply mapM_length in E. rewrite <- E. apply nth_error_Some. congruence. }
  destruct (nth_error (combine Mk (combine uc ch)) k) as [[M' [u c]]|] eqn:Ec; [|apply nth_error_None in Ec; lia].
  destruct (mapM_nth _ _ _ k _ E Ec) as (l' & El & Al). assert (l' = l) by congruence. subst l'.
  assert (IC : In (u, c) (combine uc ch)) by (apply nth_error_In in Ec; now apply in_combine_r in Ec).
  pose proof (combine_first _ _ _ _ _ Ec) as EM. assert (M' = M) by congruence.
  subst M'. destruct (UH c (in_combine_r _ _ _ _ IC)) as [HR HU]. replace (vscale (/ 2) rd) with (V (px rd / 2) (py rd / 2) (pz rd / 2)) by (vec; field). eapply array_within; eassumption.
Qed.

(** As the code stands, the distance asked for does not hold for sensors: in every room, with
    the default geometry and two sensors or more, some draw places a sensor too close to a
    wall, and outside the room if the sensors are farther apart than the nodes from the
    walls. *)
Theorem C79_walls_refuted rd m sep M : 0 < sep -> (2 <= M <= 27)%nat -> exists u, unit u /\
  forall fuel ch, exists l s, random_layout fuel false rd m Grid3d sep [M] [] [] [u] [ch] = Ok ([], [], [l]) /\ In s l /\
    ~ away rd m s /\ (m < sep -> py s < 0).
Proof.
  intros Hs HM. exists vzero. split; [unfold unit, vzero; cbn [px py pz]; lra|]. intros fuel ch. unfold random_layout. cbn [combine mapM]. unfold array_pos. rewrite grid_ok by lia. cbn [bind map].
  eexists. exists (gp (in_box rd m vzero) sep 4). split; [reflexivity|]. split.
  - apply in_map. destruct M as [|[|M]]; [lia|lia|]. cbn. tauto.
  - unfold away, gp, in_box, vzero. cbn [px py pz]. change (offy 4) with (-1)%Z. split; [|intros; nra]. intros (_ & (A & _) & _). nra.
Qed.

(** ** A linear array of three sensors 2 m apart (3 m in fact), and a grid in a corner *)
Definition c79_ch : choices := mkC (fun v => v) (fun _ => vzero) (fun v => v).
Example C79_ex_rotation : rotation (fun v => v) /\ rotation (fun v => V (- py v) (px v) (pz v)).
Proof. unfold rotation. repeat split; intros; unfold dot; try vec; cbn [px py pz]; ring. Qed.
Example C79_ex_linear : array_pos 0 Linear c79_ch (V 5 5 5) 3 2 false = Ok [V 2 5 5; V 5 5 5; V 8 5 5].
Proof.
  unfold array_pos, linear_array, linspace, rmean. cbn [map seq fold_right length Nat.sub INR c79_ch ch_lin bind vadd px py pz]. do 2 f_equal; [|f_equal; [|f_equal]]; vec; field.
Qed.
Example C79_ex_radius : exists l, array_pos 1 Radius c79_ch (V 5 5 5) 2 1 false = Ok l /\ length l = 2%nat.
Proof.
  unfold array_pos, radius_array, accept. cbn [bind c79_ch ch_pts]. destruct (Rle_dec _ _) as [_|N]; [cbn [bind fst snd]; eexists; split; reflexivity|].
  exfalso. apply N. unfold norm, dot, vzero. cbn [vscale px py pz]. replace (1 * 0 * (1 * 0) + 1 * 0 * (1 * 0) + 1 * 0 * (1 * 0)) with 0 by ring. rewrite sqrt_0. lra.
Qed.
Example C79_ex_grid : array_pos 0 Grid3d c79_ch (V 5 5 5) 3 1 false = Ok [V 5 5 5; V 5 (5 - 1) 5; V 5 (5 + 1) 5].
Proof. reflexivity. Qed.
Example C79_ex_random : random_layout 0 false (V 5 5 5) (/ 2) Grid3d (/ 10) [1%nat] [vzero] [] [V 1 1 1] [c79_ch]
  = Ok ([V (0 * (5 - 2 * / 2) + / 2) (0 * (5 - 2 * / 2) + / 2) (0 * (5 - 2 * / 2) + / 2)], [], [[V (1 * (5 - 2 * / 2) + / 2) (1 * (5 - 2 * / 2) + / 2) (1 * (5 - 2 * / 2) + / 2)]]).
Proof. reflexivity. Qed.

Print Assumptions C79_radius_apart.
Print Assumptions C79_linear.
Print Assumptions C79_spacing_refuted.
Print Assumptions C79_radius.
Print Assumptions C79_grid.
Print Assumptions C79_rotation.
Print Assumptions C79_random.
Print Assumptions C79_centre.
Print Assumptions C79_walls_refuted.
