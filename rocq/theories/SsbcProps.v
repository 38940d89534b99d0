(** Theorems about single-sensor broadcasting (C86). *)
From Verif Require Import Base BaseFacts Buffers BufFacts Centr CentrSpec CentrFacts Ssbc.
Set Implicit Arguments.

Section M.
  Variable A : Type.
  Notation matrix := (list (list A)).
  Lemma column_sbs r (pre post : list matrix) m wpre w : Forall2 (fun m w => is_matrix r w m) pre wpre -> is_matrix r w m -> 0 < w ->
    column (list_sum wpre) (side_by_side r (pre ++ m :: post)) = Ok (map (firstn 1) m).
  Proof.
    intros Hpre [Hm Hw] Hpos. unfold column, side_by_side.
    assert (E : map (firstn 1) m = map (fun i => firstn 1 (nth i m [])) (seq 0 r)).
    { apply nth_error_ext. intros i. rewrite !nth_error_map. destruct (Nat.ltb_spec i r) as [Hi|Hi].
      - rewrite (nth_error_nth' m []) by lia. rewrite (nth_error_nth' (seq 0 r) 0) by (rewrite seq_length; exact Hi). rewrite seq_nth by exact Hi. reflexivity.
      - rewrite (proj2 (nth_error_None m i)) by lia. rewrite (proj2 (nth_error_None (seq 0 r) i)) by (rewrite seq_length; exact Hi). reflexivity. }
    rewrite E. assert (G : forall l, (forall i, In i l -> i < r) ->
      mapM (fun row => do x <- get row (list_sum wpre); Ok [x]) (map (fun i => flat_map (fun m0 => nth i m0 []) (pre ++ m :: post)) l) = Ok (map (fun i => firstn 1 (nth i m [])) l)).
    { induction l as [|i l IH]; intros Hl; [reflexivity|]. cbn [map mapM]. rewrite (IH (fun j I => Hl j (or_intror I))). assert (Hi : i < r) by (apply Hl; left; reflexivity).
      rewrite flat_map_app. cbn [flat_map]. unfold get. rewrite nth_error_app2; rewrite (width_flat_map _ _ _ _ _ Hpre Hi); [|lia]. rewrite Nat.sub_diag.
      assert (Hrow : length (nth i m []) = w) by (rewrite Forall_forall in Hw; apply Hw, nth_In; lia). destruct (nth i m []) as [|x row]; [cbn in Hrow; lia|]. reflexivity. }
    apply G. intros i Hi. apply in_seq in Hi. lia.
  Qed.
  Lemma build_yssbc_spec k nsens r (local : matrix) (fr : nat -> matrix) : let n := length nsens in
    k < n -> length local = r -> (forall q, q < n -> q <> k -> 0 < nth q nsens 0 /\ is_matrix r (nth q nsens 0) (fr q)) ->
    build_yssbc nsens k local (side_by_side r (map fr (others n k))) = Ok (side_by_side r (local :: map (fun q => map (firstn 1) (fr q)) (others n k))).
  Proof.
    intros n Hk Hl Hfr. unfold build_yssbc. fold n. set (so := sensors_others nsens k). set (yc := side_by_side r (map fr (others n k))).
    assert (Eso : so = map (fun q => nth q nsens 0) (others n k)) by (unfold so, sensors_others; fold n; rewrite others_filter by exact Hk; reflexivity).
    assert (Hblock : forall q, q < n -> q <> k -> column (list_sum (firstn (slot k q) so)) yc = Ok (map (firstn 1) (fr q))).
    { intros q Hq Hne. assert (Hsplit := split_nth (slot k q) (others n k) q (others_nth n k q Hk Hq Hne)).
      unfold yc. rewrite Hsplit at 1. rewrite map_app. cbn [map]. rewrite Eso, firstn_map. apply (@column_sbs r _ _ _ _ (nth q nsens 0)); [|apply Hfr; assumption|apply Hfr; assumption].
      assert (Hin : forall x, In x (firstn (slot k q) (others n k)) -> x < n /\ x <> k).
      { intros x Hx. apply others_In; [exact Hk|]. rewrite Hsplit. apply in_or_app. left; exact Hx. }
      clear Hsplit. induction (firstn (slot k q) (others n k)) as [|x pre IH]; simpl; constructor.
      - apply Hfr; apply Hin; left; reflexivity.
      - apply IH. intros y Hy. apply Hin. right; exact Hy. }
    assert (Hlocal : local = side_by_side r [local]).
    { unfold side_by_side. apply nth_error_ext. intros i. rewrite nth_error_map. destruct (Nat.ltb_spec i r) as [Hi|Hi].
      - rewrite (nth_error_nth' local []) by lia. rewrite (nth_error_nth' (seq 0 r) 0) by (rewrite seq_length; exact Hi). rewrite seq_nth by exact Hi. cbn. rewrite app_nil_r. reflexivity.
      - rewrite (proj2 (nth_error_None local i)) by lia. rewrite (proj2 (nth_error_None (seq 0 r) i)) by (rewrite seq_length; exact Hi). reflexivity. }
    set (f := fun q => map (firstn 1) (fr q)).
    assert (HL : forall m, m <= n ->
      foldM (fun acc q => if Nat.eqb q k then Ok acc else do c <- column (list_sum (firstn (snd acc) so)) yc; do y <- hstack (fst acc) c; Ok (y, S (snd acc)))
        (seq 0 m) (local, 0)
      = Ok (side_by_side r (local :: map f (filter (fun q => negb (Nat.eqb q k)) (seq 0 m))), if k <? m then m - 1 else m)).
    { induction m as [|m IH]; intros Hm; [cbn [seq foldM filter map]; rewrite <- Hlocal; reflexivity|].
      rewrite seq_S, foldM_app, IH by lia. cbn [bind foldM Nat.add fst snd]. rewrite filter_app, map_app. cbn [filter]. destruct (Nat.eqb_spec m k) as [->|Hne]; cbn [negb map].
      - rewrite app_nil_r. destruct (Nat.ltb_spec k k), (Nat.ltb_spec k (S k)); try lia. replace (S k - 1) with k by lia. reflexivity.
      - replace (if k <? m then m - 1 else m) with (slot k m) by (unfold slot; destruct (Nat.ltb_spec k m), (Nat.ltb_spec m k); lia).
        rewrite (Hblock m ltac:(lia) Hne). cbn [bind]. rewrite hstack_sbs by (rewrite map_length; apply (proj2 (Hfr m ltac:(lia) Hne))). cbn [bind].
        replace (S (slot k m)) with (if k <? S m then S m - 1 else S m) by (unfold slot; destruct (Nat.ltb_spec m k), (Nat.ltb_spec k (S m)); lia). reflexivity. }
    specialize (HL n (le_n n)). rewrite others_filter in HL by exact Hk.
    match goal with |- bind ?x _ = _ => replace x with (Ok (side_by_side r (local :: map f (others n k)), if k <? n then n - 1 else n)) end.
    reflexivity.
  Qed.
End M.

(** The observation vector: the node's own sensors, and the first sensor of every other
    node, in the order of the nodes.  [fr q] are the sensor signals received from [q]. *)
Theorem C86_stacking A k nsens r (local : list (list A)) (fr : nat -> list (list A)) : let n := length nsens in
  k < n -> is_matrix r (nth k nsens 0) local -> (forall q, q < n -> q <> k -> 0 < nth q nsens 0 /\ is_matrix r (nth q nsens 0) (fr q)) ->
  exists y, build_yssbc nsens k local (side_by_side r (map fr (others n k))) = Ok y /\ is_matrix r (nth k nsens 0 + (n - 1)) y /\
  forall t, t < r ->
    (forall j, j < nth k nsens 0 -> nth_error (nth t y []) j = nth_error (nth t local []) j) /\
    (forall q, q < n -> q <> k -> nth_error (nth t y []) (nth k nsens 0 + slot k q) = nth_error (nth t (fr q) []) 0).
Proof.
  intros n Hk [Ll Lw] Hfr. exists (side_by_side r (local :: map (fun q => map (firstn 1) (fr q)) (others n k))). split; [apply build_yssbc_spec; assumption|].
  assert (Hin : forall q, In q (others n k) -> q < n /\ q <> k) by (intros q Hq; apply others_In in Hq; assumption).
  assert (Hrow : forall t q, t < r -> q < n -> q <> k -> exists x, nth t (map (firstn 1) (fr q)) [] = [x] /\ nth_error (nth t (fr q) []) 0 = Some x).
  { intros t q Ht Hq Hne. destruct (Hfr q Hq Hne) as [Hp [Lq Wq]]. rewrite (nth_indep _ [] (firstn 1 [])) by (rewrite map_length; lia). rewrite map_nth.
    assert (L : length (nth t (fr q) []) = nth q nsens 0) by (rewrite Forall_forall in Wq; apply Wq, nth_In; lia). destruct (nth t (fr q) []) as [|x row]; [cbn in L; lia|]. exists x. split; reflexivity. }
  assert (Hflat : forall t l, t < r -> (forall q, In q l -> q < n /\ q <> k) -> length (flat_map (fun m => nth t m []) (map (fun q => map (firstn 1) (fr q)) l)) = length l /\
    forall i q, nth_error l i = Some q -> nth_error (flat_map (fun m => nth t m []) (map (fun q => map (firstn 1) (fr q)) l)) i = nth_error (nth t (fr q) []) 0).
  { intros t l Ht. induction l as [|a l IH]; intros Hl; [split; [reflexivity|intros [|i] q; discriminate]|]. cbn [map flat_map]. destruct (Hl a (or_introl eq_refl)) as [Ha Hb]. destruct (Hrow t a Ht Ha Hb) as (x & -> & Ex).
    destruct (IH (fun q I => Hl q (or_intror I))) as [IL IV]. cbn [app length]. split; [rewrite IL; reflexivity|]. intros [|i] q E; cbn [nth_error] in *; [injection E as <-; symmetry; exact Ex|apply IV, E]. }
  assert (Hsel : forall t, t < r -> nth t (side_by_side r (local :: map (fun q => map (firstn 1) (fr q)) (others n k))) [] = nth t local [] ++ flat_map (fun m => nth t m []) (map (fun q => map (firstn 1) (fr q)) (others n k))).
  { intros t Ht. apply nth_error_nth. rewrite nth_error_sbs by exact Ht. reflexivity. }
  assert (Lloc : forall t, t < r -> length (nth t local []) = nth k nsens 0) by (intros t Ht; rewrite Forall_forall in Lw; apply Lw, nth_In; lia).
  assert (Lo : length (others n k) = n - 1) by (unfold others; rewrite app_length, !seq_length; lia).
  split; [split; [apply sbs_length|]|].
  - apply Forall_forall. intros row Hr. destruct (In_nth _ _ [] Hr) as (t & Ht & <-). rewrite sbs_length in Ht. rewrite (Hsel t Ht), app_length, (Lloc t Ht), (proj1 (Hflat t _ Ht Hin)), Lo. reflexivity.
  - intros t Ht. rewrite (Hsel t Ht). split.
    + intros j Hj. apply nth_error_app1. rewrite (Lloc t Ht). exact Hj.
    + intros q Hq Hne. rewrite nth_error_app2 by (rewrite (Lloc t Ht); lia). rewrite (Lloc t Ht). replace (nth k nsens 0 + slot k q - nth k nsens 0) with (slot k q) by lia.
      apply (proj2 (Hflat t _ Ht Hin)), others_nth; assumption.
Qed.
(** "Each node only would broadcast its raw reference sensor signal": it is the first
    sensor, whichever the reference sensor is.  Nodes with two sensors, reference 1. *)
Theorem C86_reference_refuted : exists nsens k r (local : list (list nat)) fr y, let n := length nsens in let ref := 1 in
  k < n /\ is_matrix r (nth k nsens 0) local /\ (forall q, q < n -> q <> k -> ref < nth q nsens 0 /\ is_matrix r (nth q nsens 0) (fr q)) /\
  build_yssbc nsens k local (side_by_side r (map fr (others n k))) = Ok y /\
  exists q t, q < n /\ q <> k /\ t < r /\ nth_error (nth t y []) (nth k nsens 0 + slot k q) <> nth_error (nth t (fr q) []) ref.
Proof.
  exists [2; 2], 0, 1, [[1; 2]], (fun _ => [[3; 4]]), [[1; 2; 3]]. cbn zeta. split; [cbn; lia|]. split; [split; repeat constructor|].
  split; [intros [|[|q]] H1 H2; cbn in *; try lia; split; [lia|split; repeat constructor]|]. split; [reflexivity|].
  exists 1, 0. split; [cbn; lia|]. split; [lia|]. split; [lia|]. discriminate.
Qed.
(** In the centralised observation vector, sensor [m] of node [q] comes after the sensors
    of the nodes before [q]: its reference sensor has the index that the centralised
    filters are initialised with. *)
Theorem C86_centralised_channel A k nsens Ndft (local : list (list A)) (fr : nat -> list (list A)) y t q m : let n := length nsens in
  k < n -> is_matrix (Z.to_nat Ndft) (nth k nsens 0) local -> (forall p, p < n -> p <> k -> is_matrix (Z.to_nat Ndft) (nth p nsens 0) (fr p)) ->
  build_ycentr nsens k Ndft local (side_by_side (Z.to_nat Ndft) (map fr (others n k))) = Ok y -> t < Z.to_nat Ndft -> q < n -> m < nth q nsens 0 ->
  nth_error (nth t y []) (list_sum (firstn q nsens) + m) = nth_error (nth t (if Nat.eqb q k then local else fr q) []) m.
Proof.
  intros n Hk Hl Hfr E Ht Hq Hm. unfold n in E. rewrite (build_ycentr_spec _ k nsens Ndft local fr Hk (proj1 Hl) Hfr) in E. injection E as <-. fold n.
  set (g := fun q => if Nat.eqb q k then local else fr q). set (r := Z.to_nat Ndft) in *.
  assert (Hg : forall p, p < n -> is_matrix r (nth p nsens 0) (g p)) by (intros p Hp; unfold g; destruct (Nat.eqb_spec p k) as [->|]; [exact Hl|apply Hfr; assumption]).
  rewrite (nth_error_nth _ t [] (nth_error_sbs _ _ _ t Ht)). replace n with (q + S (n - q - 1)) by lia. rewrite seq_app, map_app, flat_map_app. cbn [seq map flat_map Nat.add].
  assert (W : length (flat_map (fun m => nth t m []) (map g (seq 0 q))) = list_sum (firstn q nsens)).
  { assert (F : forall l, (forall p, In p l -> p < n) -> length (flat_map (fun m => nth t m []) (map g l)) = list_sum (map (fun p => nth p nsens 0) l)).
    { induction l as [|p l IH]; intros Hp; [reflexivity|]. cbn [map flat_map list_sum fold_right]. rewrite app_length, IH by (intros; apply Hp; right; assumption). destruct (Hg p (Hp p (or_introl eq_refl))) as [L1 L2]. rewrite Forall_forall in L2. rewrite (L2 (nth t (g p) [])) by (apply nth_In; lia). reflexivity. }
    rewrite F by (intros p Hp; apply in_seq in Hp; lia). f_equal. assert (Hq' : q < length nsens) by exact Hq. clear -Hq'. rename Hq' into Hq. revert nsens Hq. induction q as [|q IH]; intros [|a l] Hq; try reflexivity; [cbn in Hq; lia|]. cbn [seq map nth firstn]. f_equal. rewrite <- seq_shift, map_map. apply IH. cbn in Hq. lia. }
  destruct (Hg q Hq) as [L1 L2]. rewrite Forall_forall in L2. assert (Lq : length (nth t (g q) []) = nth q nsens 0) by (apply L2, nth_In; lia).
  rewrite nth_error_app2 by (rewrite W; lia). rewrite W. replace (list_sum (firstn q nsens) + m - list_sum (firstn q nsens)) with m by lia. apply nth_error_app1. change (m < length (nth t (g q) [])). rewrite Lq. exact Hm.
Qed.

Example C86_example : build_yssbc [1; 2; 1] 1 [[1; 2]; [5; 6]] (side_by_side 2 [[[3]; [7]]; [[4]; [8]]]) = Ok [[1; 2; 3; 4]; [5; 6; 7; 8]].
Proof. reflexivity. Qed.
Example C86_example_centr : build_ycentr [1; 2; 1] 1 2 [[1; 2]; [5; 6]] (side_by_side 2 [[[3]; [7]]; [[4]; [8]]]) = Ok [[3; 1; 2; 4]; [7; 5; 6; 8]].
Proof. reflexivity. Qed.

Print Assumptions C86_stacking.
Print Assumptions C86_reference_refuted.
Print Assumptions C86_centralised_channel.
