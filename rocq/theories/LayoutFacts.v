From Verif Require Import Base BaseFacts Layout LayoutSpec.
From Coq Require Import Reals Lra.
Local Open Scope R_scope.

Lemma vec_eq a b : px a = px b -> py a = py b -> pz a = pz b -> a = b.
Proof. destruct a, b. cbn. now intros -> -> ->. Qed.
Ltac vec := apply vec_eq; cbn [vadd vsub vscale vzero px py pz]; try ring.

Lemma dot_pos a : 0 <= dot a a.
Proof. unfold dot. nra. Qed.
Lemma norm_coord a : Rabs (px a) <= norm a /\ Rabs (py a) <= norm a /\ Rabs (pz a) <= norm a.
Proof.
  unfold norm. rewrite <- !sqrt_Rsqr_abs. unfold Rsqr, dot. repeat split; apply sqrt_le_1_alt; nra.
Qed.
Lemma norm_x t : norm (V t 0 0) = Rabs t.
Proof. unfold norm, dot. cbn [px py pz]. replace (t * t + 0 * 0 + 0 * 0) with (Rsqr t) by (unfold Rsqr; ring). apply sqrt_Rsqr_abs. Qed.
Lemma rot_norm f a : rotation f -> norm (f a) = norm a.
Proof. intros (_ & _ & H). unfold norm. now rewrite H. Qed.
Lemma rot_sub f a b : rotation f -> f (vsub a b) = vsub (f a) (f b).
Proof.
  intros (H1 & H2 & _). replace (vsub a b) with (vadd a (vscale (-1) b)) by vec. rewrite H1, H2. vec.
Qed.
Lemma rot_zero f : rotation f -> f vzero = vzero.
Proof. intros (_ & H & _). replace vzero with (vscale 0 vzero) at 1 by vec. rewrite H. vec. Qed.

(** ** sums *)
Definition vsum (l : list vec) : vec := fold_right vadd vzero l.
Lemma vsum_map_add f (g : vec -> vec) l : rotation f -> forall c, vsum (map (fun s => vadd (f (g s)) c) l) = vadd (f (vsum (map g l))) (vscale (INR (length l)) c).
Proof.
  intros Hf c. induction l as [|s l IH]; cbn [map vsum fold_right length].
  - fold vzero. rewrite (rot_zero f Hf). cbn [INR]. vec.
  - fold (vsum (map (fun s0 => vadd (f (g s0)) c) l)). fold (vsum (map g l)). rewrite IH, (proj1 Hf), S_INR. vec.
Qed.
Lemma vsum_sub l m : vsum (map (fun s => vsub s m) l) = vsub (vsum l) (vscale (INR (length l)) m).
Proof.
  induction l as [|s l IH]; cbn [map vsum fold_right length]; [cbn [INR]; vec|]. fold (vsum (map (fun s0 => vsub s0 m) l)). fold (vsum l). rewrite IH, S_INR. vec.
Qed.
Lemma len_pos {A} (l : list A) : l <> [] -> 0 < INR (length l).
Proof. destruct l; [congruence|]. intros _. apply lt_0_INR. cbn. lia. Qed.
Lemma vmean_scale l : l <> [] -> vsum l = vscale (INR (length l)) (vmean l).
Proof. intros H. apply len_pos in H. unfold vmean. fold (vsum l). vec; field; lra. Qed.
Lemma vmean_of l c : l <> [] -> vsum l = vscale (INR (length l)) c -> vmean l = c.
Proof. intros H E. apply len_pos in H. unfold vmean. fold (vsum l). rewrite E. vec; field; lra. Qed.

Lemma nth_map_in {A B} (f : A -> B) l i d d' : (i < length l)%nat -> nth i (map f l) d = f (nth i l d').
Proof. intros H. rewrite (nth_indep _ d (f d')) by (now rewrite map_length). apply map_nth. Qed.

(** ** linear arrays *)
Lemma sum_steps h n : fold_right Rplus 0 (map (fun i => INR i * h) (seq 0 n)) = h * INR n * (INR n - 1) / 2.
Proof.
  induction n as [|n IH]; [cbn; field|]. rewrite seq_S, map_app, fold_right_app. cbn [map fold_right plus].
  assert (G : forall l a, fold_right Rplus a l = fold_right Rplus 0 l + a) by (intros l a; induction l as [|x l IHl]; cbn [fold_right]; [ring|rewrite IHl; ring]).
  rewrite G, IH, S_INR. field.
Qed.
Lemma linspace_length s n : length (linspace s n) = n.
Proof. unfold linspace. now rewrite map_length, seq_length. Qed.
Lemma linspace_nth s n i : (i < n)%nat -> nth i (linspace s n) 0 = INR i * (s / INR (n - 1)).
Proof.
  intros H. unfold linspace. rewrite (nth_map_in _ _ _ _ 0%nat) by (now rewrite seq_length). now rewrite seq_nth.
Qed.
Definition step (M : nat) (sep : R) : R := INR M * sep / INR (M - 1).
Lemma lin_mean M sep : (1 <= M)%nat -> rmean (linspace (INR M * sep) M) = step M sep * (INR M - 1) / 2.
Proof.
  intros H. unfold rmean. rewrite linspace_length. unfold linspace. rewrite sum_steps. assert (0 < INR M) by (apply lt_0_INR; lia). fold (step M sep). field. lra.
Qed.
Lemma lin_mean2 M sep : (2 <= M)%nat -> rmean (linspace (INR M * sep) M) = INR M * sep / 2.
Proof.
  intros H. rewrite lin_mean by lia. unfold step. rewrite minus_INR by lia. cbn [INR]. assert (1 < INR M) by (apply (lt_INR 1); lia). field. lra.
Qed.
Lemma linear_length rot c M sep : length (linear_array rot c M sep) = M.
Proof. unfold linear_array. now rewrite map_length, linspace_length. Qed.
Lemma linear_nth rot c M sep i : (i < M)%nat ->
  nth i (linear_array rot c M sep) vzero = vadd (rot (V (INR i * step M sep - rmean (linspace (INR M * sep) M)) 0 0)) c.
Proof.
  intros H. unfold linear_array. cbv zeta. rewrite (nth_map_in _ _ _ _ 0) by (now rewrite linspace_length). now rewrite linspace_nth.
Qed.
Lemma linear_distance rot c M sep i j : rotation rot -> (i < M)%nat -> (j < M)%nat -> 
  distance (nth i (linear_array rot c M sep) vzero) (nth j (linear_array rot c M sep) vzero) = Rabs (INR i - INR j) * Rabs (step M sep).
Proof.
  intros Hr Hi Hj. rewrite !linear_nth by assumption. set (m := rmean _). unfold distance.
  replace (vsub _ _) with (rot (V ((INR i - INR j) * step M sep) 0 0)).
  - rewrite rot_norm by exact Hr. rewrite norm_x. apply Rabs_mult.
  - replace (V ((INR i - INR j) * step M sep) 0 0) with (vsub (V (INR i * step M sep - m) 0 0) (V (INR j * step M sep - m) 0 0)) by vec. rewrite (rot_sub rot _ _ Hr). vec.
Qed.
Lemma linear_mean rot c M sep : rotation rot -> (1 <= M)%nat -> vmean (linear_array rot c M sep) = c.
Proof.
  intros Hr HM. apply vmean_of; [intros E; apply (f_equal (@length vec)) in E; rewrite linear_length in E; cbn in E; lia|]. rewrite linear_length.
  unfold linear_array. set (x := linspace _ _). set (m := rmean x).
  transitivity (vadd (rot (V (fold_right Rplus 0 x - INR (length x) * m) 0 0)) (vscale (INR (length x)) c)).
  - generalize x. intros l. induction l as [|t l IH]; cbn [map vsum fold_right length].
    + replace (V (0 - INR 0 * m) 0 0) with vzero by (cbn [INR]; vec). rewrite (rot_zero rot Hr). cbn [INR]. vec.
    + fold (vsum (map (fun t => vadd (rot (V (t - m) 0 0)) c) l)). rewrite IH, S_INR.
      replace (V (t + fold_right Rplus 0 l - (INR (length l) + 1) * m) 0 0) with (vadd (V (t - m) 0 0) (V (fold_right Rplus 0 l - INR (length l) * m) 0 0)) by vec.
      rewrite (proj1 Hr). vec.
  - replace (fold_right Rplus 0 x - INR (length x) * m) with 0.
    + fold vzero. rewrite (rot_zero rot Hr). unfold x. rewrite linspace_length. vec.
    + unfold m, rmean. assert (0 < INR (length x)) by (unfold x; rewrite linspace_length; apply lt_0_INR; lia). field. lra.
Qed.
Lemma linear_reach rot c M sep s : rotation rot -> 0 <= sep -> In s (linear_array rot c M sep) -> distance s c <= INR M * sep / 2.
Proof.
  intros Hr Hs H. apply In_nth with (d := vzero) in H. destruct H as (i & Hi & <-). rewrite linear_length in Hi. rewrite linear_nth by exact Hi. unfold distance.
  replace (vsub (vadd _ c) c) with (rot (V (INR i * step M sep - rmean (linspace (INR M * sep) M)) 0 0)) by vec. rewrite rot_norm, norm_x by exact Hr.
  assert (P : 0 <= INR M * sep) by (apply Rmult_le_pos; [apply pos_INR|exact Hs]).
  destruct (Nat.eq_dec M 1) as [->|N].
  - assert (i = 0)%nat by lia. subst i. rewrite lin_mean by lia. cbn [INR]. replace (0 * step 1 sep - step 1 sep * (1 - 1) / 2) with 0 by field. rewrite Rabs_R0. cbn [INR] in P. lra.
  - rewrite lin_mean2 by lia. unfold step. rewrite minus_INR by lia. cbn [INR]. assert (1 < INR M) by (apply (lt_INR 1); lia).
    assert (0 <= INR i <= INR M - 1). { split; [apply pos_INR|]. assert (INR (S i) <= INR M) by (apply le_INR; lia). rewrite S_INR in *. lra. }
    replace (INR i * (INR M * sep / (INR M - 1))) with (INR i / (INR M - 1) * (INR M * sep)) by (field; lra).
    assert (Q : 0 <= INR i / (INR M - 1) <= 1). { split; [apply Rmult_le_pos; [lra|apply Rlt_le, Rinv_0_lt_compat; lra]|]. apply Rmult_le_reg_r with (INR M - 1); [lra|]. replace (INR i / (INR M - 1) * (INR M - 1)) with (INR i) by (field; lra). lra. }
    apply Rabs_le. nra.
Qed.

(** ** 'radius' *)
Lemma accept_ok f draw radius t r : (forall n, unit (draw n)) -> 0 <= radius -> accept f draw radius t = Ok r ->
  (0 <= px (fst r) <= radius) /\ (0 <= py (fst r) <= radius) /\ (0 <= pz (fst r) <= radius) /\ norm (fst r) <= radius.
Proof.
  intros HU HR. revert t. induction f as [|f IH]; intros t H; cbn [accept] in H; [discriminate|]. destruct (Rle_dec _ _) as [L|_]; [|now apply IH in H].
  injection H as <-. cbn [fst]. destruct (HU t) as (A & B & C). cbn [vscale px py pz] in *. repeat split; try assumption; nra.
Qed.
Lemma radius_ok f draw c M radius : (forall n, unit (draw n)) -> 0 <= radius -> forall t l, radius_array f draw c M radius t = Ok l ->
  length l = M /\ forall s, In s l -> within (radius / 2) s c.
Proof.
  intros HU HR. induction M as [|M IH]; intros t l H; cbn [radius_array] in H; [injection H as <-; split; [reflexivity|intros s []]|].
  apply bind_ok in H. destruct H as (r & Ea & H). apply bind_ok in H. destruct H as (l' & El & H). injection H as <-. destruct (IH _ _ El) as [L1 L2]. split; [cbn; now rewrite L1|].
  intros s [<-|Hs]; [|now apply L2]. destruct (accept_ok _ _ _ _ _ HU HR Ea) as (A & B & C & _). unfold within. cbn [vsub vadd px py pz]. repeat split; apply Rabs_le; lra.
Qed.
Lemma within_distance r s c : within (r / 2) s c -> 0 <= r -> distance s c <= r.
Proof.
  intros (A & B & C) H. unfold distance, norm. rewrite <- (sqrt_Rsqr r H). apply sqrt_le_1_alt. unfold dot, Rsqr. cbn [vsub px py pz].
  assert (Q : forall x, Rabs x <= r / 2 -> x * x <= r * r / 4). { intros x Hx. pose proof (Rabs_pos x). replace (x * x) with (Rabs x * Rabs x) by (rewrite <- Rabs_mult; apply Rabs_pos_eq; nra). nra. }
  apply Q in A, B, C. nra.
Qed.

(** ** 'grid3d' *)
Definition offx (j : nat) : Z := Z.of_nat (j / 3 mod 3) - 1.
Definition offy (j : nat) : Z := Z.of_nat (j / 9) - 1.
Definition offz (j : nat) : Z := Z.of_nat (j mod 3) - 1.
Definition gp (c : vec) (d : R) (j : nat) : vec := V (px c + IZR (offx j) * d) (py c + IZR (offy j) * d) (pz c + IZR (offz j) * d).
Lemma grid_nth c d j : (j < 27)%nat -> nth_error (grid_points c d) j = Some (gp c d j).
Proof.
  intros H. do 27 (destruct j as [|j]; [cbn -[Rplus Rminus Rmult]; f_equal; unfold gp; apply vec_eq; cbn [px py pz]; match goal with |- context[IZR ?z] => let z' := eval vm_compute in z in change z with z' end; ring|]). lia.
Qed.
Definition grid_order : list nat := atomic ++ others.
Lemma grid_order_ok : NoDup grid_order /\ length grid_order = 27%nat /\ forall j, In j grid_order -> (j < 27)%nat.
Proof.
  assert (E : grid_order = [13;4;22;10;16;14;12;0;1;2;3;5;6;7;8;9;11;15;17;18;19;20;21;23;24;25;26]%nat) by reflexivity. rewrite E. split; [|split; [reflexivity|]].
  - repeat constructor; cbn; lia.
  - intros j H. cbn in H. lia.
Qed.
Lemma mapM_fails {A B} (f : A -> res B) l1 x l2 e : (forall a, In a l1 -> exists b, f a = Ok b) -> f x = Err e -> mapM f (l1 ++ x :: l2) = Err e.
Proof.
  intros H E. induction l1 as [|a l1 IH]; cbn [app mapM]; [now rewrite E|]. destruct (H a (or_introl eq_refl)) as [b ->]. cbn [bind]. rewrite IH; [reflexivity|]. intros a' Ha. apply H. now right.
Qed.
Lemma mapM_maps {A B} (f : A -> res B) (g : A -> B) l : (forall a, In a l -> f a = Ok (g a)) -> mapM f l = Ok (map g l).
Proof.
  induction l as [|a l IH]; intros H; cbn [mapM map]; [reflexivity|]. rewrite (H a (or_introl eq_refl)). cbn [bind]. rewrite IH; [reflexivity|]. intros b Hb. apply H. now right.
Qed.
Lemma others_nth i : (i < 20)%nat -> get others i = Ok (nth i others 0%nat).
Proof. intros H. do 20 (destruct i as [|i]; [reflexivity|]). lia. Qed.
Lemma grid_get c d j : (j < 27)%nat -> get (grid_points c d) j = Ok (gp c d j).
Proof. intros H. unfold get. now rewrite grid_nth. Qed.
Lemma grid_ok c M d : (M <= 27)%nat -> grid_array c M d = Ok (map (gp c d) (firstn M grid_order)).
Proof.
  intros H. unfold grid_array. pose proof grid_order_ok as (_ & _ & HB).
  rewrite (mapM_maps _ (gp c d)) by (intros a Ha; apply grid_get, HB; unfold grid_order; apply in_app_iff; left; rewrite <- (firstn_skipn (Nat.min (length atomic) M) atomic); apply in_app_iff; now left).
  cbn [bind]. rewrite (mapM_maps _ (fun i => gp c d (nth i others 0%nat))).
  - cbn [bind]. f_equal. unfold grid_order. rewrite firstn_app, map_app. f_equal.
    + f_equal. destruct (Nat.le_gt_cases (length atomic) M) as [L|L].
      * rewrite Nat.min_l by lia. rewrite firstn_all. now rewrite firstn_all2 by lia.
      * now rewrite Nat.min_r by lia.
    + assert (L : (M - length atomic <= 20)%nat) by (cbn; lia). revert L. generalize (M - length atomic)%nat. intros k L. do 21 (destruct k as [|k]; [reflexivity|]). lia.
  - intros i Hi. apply in_seq in Hi. cbn [length atomic] in Hi. assert (i < 20)%nat by (cbn in *; lia). rewrite others_nth by assumption. cbn [bind]. apply grid_get, HB. unfold grid_order. apply in_app_iff. right. apply nth_In. replace (length others) with 20%nat by reflexivity. assumption.
Qed.
Lemma grid_err c M d : (27 < M)%nat -> grid_array c M d = Err IndexError.
Proof.
  intros H. unfold grid_array. pose proof grid_order_ok as (_ & _ & HB).
  rewrite (mapM_maps _ (gp c d)) by (intros a Ha; apply grid_get, HB; unfold grid_order; apply in_app_iff; left; rewrite <- (firstn_skipn (Nat.min (length atomic) M) atomic); apply in_app_iff; now left).
  cbn [bind]. replace (seq 0 (M - length atomic)) with (seq 0 20 ++ 20%nat :: seq 21 (M - 28)).
  - rewrite (mapM_fails _ _ _ _ IndexError); [reflexivity| |reflexivity]. intros i Hi. apply in_seq in Hi. rewrite others_nth by lia. cbn [bind]. eexists. apply grid_get, HB. unfold grid_order. apply in_app_iff. right. apply nth_In. replace (length others) with 20%nat by reflexivity. lia.
  - replace (M - length atomic)%nat with (20 + (1 + (M - 28)))%nat by (cbn [length atomic]; lia). now rewrite seq_app, seq_app.
Qed.
Lemma off_range j : (j < 27)%nat -> (-1 <= offx j <= 1 /\ -1 <= offy j <= 1 /\ -1 <= offz j <= 1)%Z.
Proof.
  intros H. unfold offx, offy, offz. pose proof (Nat.mod_upper_bound (j / 3) 3 ltac:(lia)). pose proof (Nat.mod_upper_bound j 3 ltac:(lia)).
  assert (j / 9 < 3)%nat by (apply Nat.div_lt_upper_bound; lia). lia.
Qed.
Lemma off_inj i j : (i < 27)%nat -> (j < 27)%nat -> offx i = offx j -> offy i = offy j -> offz i = offz j -> i = j.
Proof.
  intros Hi Hj X Y Z0. unfold offx, offy, offz in *. assert (E1 : (i / 3 mod 3 = j / 3 mod 3)%nat) by lia. assert (E2 : (i / 9 = j / 9)%nat) by lia. assert (E3 : (i mod 3 = j mod 3)%nat) by lia.
  change 9%nat with (3 * 3)%nat in E2. rewrite <- !Nat.div_div in E2 by lia. pose proof (Nat.div_mod i 3 ltac:(lia)). pose proof (Nat.div_mod j 3 ltac:(lia)).
  pose proof (Nat.div_mod (i / 3) 3 ltac:(lia)). pose proof (Nat.div_mod (j / 3) 3 ltac:(lia)). lia.
Qed.
Lemma gp_within c d j : (j < 27)%nat -> 0 <= d -> within d (gp c d j) c.
Proof.
  intros H Hd. destruct (off_range j H) as (A & B & C). unfold within, gp. cbn [px py pz].
  assert (Q : forall k x, (-1 <= k <= 1)%Z -> Rabs (x + IZR k * d - x) <= d). { intros k x (L & U). apply IZR_le in L, U. replace (x + IZR k * d - x) with (IZR k * d) by ring. apply Rabs_le. nra. }
  auto.
Qed.
Lemma gp_far c d i j : (i < 27)%nat -> (j < 27)%nat -> i <> j -> 0 <= d -> d <= distance (gp c d i) (gp c d j).
Proof.
  intros Hi Hj N Hd. destruct (norm_coord (vsub (gp c d i) (gp c d j))) as (A & B & C). unfold distance. unfold gp in A, B, C at 1. cbn [vsub px py pz gp] in A, B, C.
  assert (Q : forall k l x, k <> l -> d <= Rabs (x + IZR k * d - (x + IZR l * d))).
  { intros k l x Nk. replace (x + IZR k * d - (x + IZR l * d)) with (IZR (k - l) * d) by (rewrite minus_IZR; ring). rewrite Rabs_mult, (Rabs_pos_eq d Hd).
    assert (1 <= Rabs (IZR (k - l))). { rewrite <- abs_IZR. apply (IZR_le 1). lia. } nra. }
  destruct (Z.eq_dec (offx i) (offx j)) as [X|X]; [|eapply Rle_trans; [exact (Q _ _ (px c) X)|exact A]].
  destruct (Z.eq_dec (offy i) (offy j)) as [Y|Y]; [|eapply Rle_trans; [exact (Q _ _ (py c) Y)|exact B]].
  destruct (Z.eq_dec (offz i) (offz j)) as [Z0|Z0]; [|eapply Rle_trans; [exact (Q _ _ (pz c) Z0)|exact C]].
  exfalso. apply N. now apply off_inj.
Qed.

(** ** rotation about the centre *)
Lemma rotate_mean rot l : rotation rot -> l <> [] -> vmean (rotate rot l) = vmean l.
Proof.
  intros Hr Hl. unfold rotate. set (m := vmean l). apply vmean_of; [destruct l; [congruence|discriminate]|]. rewrite map_length.
  rewrite (vsum_map_add rot (fun s => vsub s m) l Hr m), vsum_sub. unfold m. rewrite <- (vmean_scale l Hl). replace (vsub (vsum l) (vsum l)) with vzero by vec. rewrite (rot_zero rot Hr). vec.
Qed.
Lemma rotate_nth rot l i : (i < length l)%nat -> nth i (rotate rot l) vzero = vadd (rot (vsub (nth i l vzero) (vmean l))) (vmean l).
Proof.
  intros H. unfold rotate. cbv zeta. now rewrite (nth_map_in _ _ _ _ vzero).
Qed.
Lemma rotate_distance rot l i j : rotation rot -> (i < length l)%nat -> (j < length l)%nat ->
  distance (nth i (rotate rot l) vzero) (nth j (rotate rot l) vzero) = distance (nth i l vzero) (nth j l vzero).
Proof.
  intros Hr Hi Hj. rewrite !rotate_nth by assumption. unfold distance. set (m := vmean l). replace (vsub _ _) with (rot (vsub (nth i l vzero) (nth j l vzero))); [now apply rot_norm|].
  replace (vsub (nth i l vzero) (nth j l vzero)) with (vsub (vsub (nth i l vzero) m) (vsub (nth j l vzero) m)) by vec. rewrite (rot_sub rot _ _ Hr). vec.
Qed.

(** ** boxes *)
Lemma in_box_away rd m u : unit u -> 2 * m <= px rd -> 2 * m <= py rd -> 2 * m <= pz rd -> away rd m (in_box rd m u).
Proof. intros (A & B & C) X Y Z0. unfold away, in_box. cbn [px py pz]. repeat split; nra. Qed.
Lemma within_away rd m r p c : within r p c -> away rd m c -> away rd (m - r) p.
Proof.
  intros (A & B & C) (X & Y & Z0). unfold away. assert (Q : forall x y, Rabs (x - y) <= r -> y - r <= x <= y + r). { intros x y H. unfold Rabs in H. destruct (Rcase_abs _); lra. }
  apply Q in A, B, C. lra.
Qed.
Lemma array_within f g ch c M sep l s : rotation (ch_lin ch) -> (forall n, unit (ch_pts ch n)) -> 0 <= sep ->
  array_pos f g ch c M sep false = Ok l -> In s l -> within (reach g M sep) s c.
Proof.
  intros HR HU Hs H I. unfold array_pos in H. apply bind_ok in H. destruct H as (l' & E & H). injection H as <-. destruct g; cbn [reach].
  - injection E as <-. pose proof (linear_reach _ c M sep s HR Hs I) as D. destruct (norm_coord (vsub s c)) as (A & B & C). cbn [vsub px py pz] in A, B, C. unfold distance in D. unfold within. cbn [vsub] in D. lra.
  - destruct (radius_ok _ _ _ _ _ HU Hs _ _ E) as [_ L]. now apply L.
  - destruct (Nat.le_gt_cases M 27) as [L|L]; [|rewrite grid_err in E by exact L; discriminate]. rewrite grid_ok in E by exact L. injection E as <-. apply in_map_iff in I. destruct I as (j & <- & Hj).
    apply gp_within; [|exact Hs]. apply grid_order_ok. rewrite <- (firstn_skipn M grid_order). apply in_app_iff. now left.
  - discriminate.
Qed.
Lemma combine_first {A B} (a : list A) : forall (b : list B) k x y, nth_error (combine a b) k = Some (x, y) -> nth_error a k = Some x.
Proof.
  induction a as [|a0 a IH]; intros b k x y H; [destruct k; discriminate|]. destruct b as [|b0 b]; [destruct k; discriminate|]. destruct k as [|k]; cbn in *; [congruence|]. now apply (IH b k x y).
Qed.

Lemma accept_at fuel draw radius : forall t r, accept fuel draw radius t = Ok r -> exists i, (t <= i < snd r)%nat /\ fst r = vscale radius (draw i).
Proof.
  induction fuel as [|f IH]; intros t r H; [discriminate|]. cbn [accept] in H. destruct (Rle_dec _ _).
  - injection H as <-. exists t. cbn. split; [lia|reflexivity].
  - destruct (IH _ _ H) as (i & Hi & E). exists i. split; [lia|exact E].
Qed.
Lemma radius_at fuel draw c radius M : forall t l, radius_array fuel draw c M radius t = Ok l ->
  exists ix, length ix = length l /\ (forall i, In i ix -> (t <= i)%nat) /\ NoDup ix /\ l = map (fun i => vsub (vadd (vscale radius (draw i)) c) (V (radius / 2) (radius / 2) (radius / 2))) ix.
Proof.
  induction M as [|M IH]; intros t l H; cbn [radius_array] in H; [injection H as <-; exists []; repeat split; [intros i []|constructor]|].
  apply bind_ok in H. destruct H as (r & Er & H). apply bind_ok in H. destruct H as (l' & El & H). injection H as <-.
  destruct (accept_at _ _ _ _ _ Er) as (i & Hi & E). destruct (IH _ _ El) as (ix & L & B & ND & ->). exists (i :: ix). cbn [length map]. rewrite E. repeat split; [now rewrite L| | ].
  - intros j [<-|Hj]; [lia|]. specialize (B j Hj). lia.
  - constructor; [|exact ND]. intros I. specialize (B i I). lia.
Qed.
