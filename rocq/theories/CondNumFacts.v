(** Lemmas on recorded condition numbers. *)
From Verif Require Import Base CondNum CondNumSpec.
Set Implicit Arguments.

Section Props.
  Variables (M C : Type) (cond : M -> C).
  Lemma due_S every n : due every (S n) = due every n ++ (if Z.leb every 1 || Z.eqb ((Z.of_nat n + 1) mod every) 0 then [n] else []).
  Proof. unfold due. rewrite seq_S, filter_app. reflexivity. Qed.
  Lemma consider_inv (sel : list M * list M * list M -> list M) every n ms (x : list M * list M * list M) r : length ms = n ->
    r_iters r = due every n -> r_cols r = map (fun i => map cond (nth i (map sel ms) [])) (due every n) ->
    r_last r = (if Z.leb every 1 then Z.of_nat n - 1 else every * (Z.of_nat n / every) - 1)%Z ->
    let r' := consider cond true every n (sel x) r in
    r_iters r' = due every (S n) /\ r_cols r' = map (fun i => map cond (nth i (map sel (ms ++ [x])) [])) (due every (S n)) /\
    r_last r' = (if Z.leb every 1 then Z.of_nat (S n) - 1 else every * (Z.of_nat (S n) / every) - 1)%Z.
  Proof.
    intros Hn H1 H2 H3. cbv zeta. unfold consider. rewrite due_S. cbn [andb].
    assert (HN : map (fun i => map cond (nth i (map sel ms) [])) (due every n) = map (fun i => map cond (nth i (map sel (ms ++ [x])) [])) (due every n)).
    { apply map_ext_in. intros i Hi. unfold due in Hi. apply filter_In in Hi. destruct Hi as [Hi _]. apply in_seq in Hi. rewrite map_app, app_nth1 by (rewrite map_length; lia). reflexivity. }
    assert (HX : nth n (map sel (ms ++ [x])) [] = sel x) by (rewrite map_app, app_nth2 by (rewrite map_length; lia); rewrite map_length, Hn, Nat.sub_diag; reflexivity).
    assert (HC : Z.leb every (Z.of_nat n - r_last r) = (Z.leb every 1 || Z.eqb ((Z.of_nat n + 1) mod every) 0)%bool /\
      ((if (Z.leb every 1 || Z.eqb ((Z.of_nat n + 1) mod every) 0)%bool then Z.of_nat n else r_last r) = (if Z.leb every 1 then Z.of_nat (S n) - 1 else every * (Z.of_nat (S n) / every) - 1)%Z)).
    { rewrite H3. destruct (Z.leb_spec every 1) as [He|He]; cbn [orb].
      - split; [apply Z.leb_le; lia | lia].
      - replace (Z.of_nat (S n)) with (Z.of_nat n + 1)%Z by lia.
        pose proof (Z.div_mod (Z.of_nat n) every ltac:(lia)) as D. pose proof (Z.mod_pos_bound (Z.of_nat n) every ltac:(lia)) as B.
        set (q := (Z.of_nat n / every)%Z) in *. set (m := (Z.of_nat n mod every)%Z) in *.
        destruct (Z.eq_dec m (every - 1)) as [Em|Em].
        + assert (E : ((Z.of_nat n + 1) = (q + 1) * every + 0)%Z) by (rewrite D, Em; ring).
          assert (E0 : ((Z.of_nat n + 1) mod every = 0)%Z) by (rewrite E, Z.add_comm, Z_mod_plus_full; apply Z.mod_small; lia).
          assert (E1 : ((Z.of_nat n + 1) / every = q + 1)%Z) by (rewrite E, Z.add_comm, Z_div_plus_full by lia; rewrite Z.div_small by lia; ring).
          rewrite E0, E1. cbn [Z.eqb]. split; [apply Z.leb_le; nia | nia].
        + assert (E : (Z.of_nat n + 1 = (m + 1) + q * every)%Z) by (rewrite D; ring).
          assert (E0 : ((Z.of_nat n + 1) mod every = m + 1)%Z) by (rewrite E, Z_mod_plus_full; apply Z.mod_small; lia).
          assert (E1 : ((Z.of_nat n + 1) / every = q)%Z) by (rewrite E, Z_div_plus_full by lia; rewrite Z.div_small by lia; ring).
          rewrite E0, E1. replace (m + 1 =? 0)%Z with false by (symmetry; apply Z.eqb_neq; lia). split; [apply Z.leb_gt; nia | reflexivity]. }
    destruct HC as [HC1 HC2]. rewrite HC1. destruct (Z.leb every 1 || Z.eqb ((Z.of_nat n + 1) mod every) 0)%bool; cbn [add r_iters r_cols r_last].
    - rewrite H1, map_app. cbn [map]. rewrite HX, <- HN, H2. split; [reflexivity|]. split; [reflexivity | exact HC2].
    - rewrite app_nil_r, H1, <- HN, H2. split; [reflexivity|]. split; [reflexivity | exact HC2].
  Qed.
  Lemma all_recorded loc centr every ms : let s := run cond true loc centr every ms in
    recorded cond danse_of every ms (n_danse s) /\
    (if loc then recorded cond local_of every ms (n_local s) else n_local s = empty C) /\
    (if centr then recorded cond centr_of every ms (n_centr s) else n_centr s = empty C).
  Proof.
    cbv zeta.
    assert (G : let s := run cond true loc centr every ms in n_i s = length ms /\
      (let ok sel (r : record C) := recorded cond sel every ms r /\ r_last r = (if Z.leb every 1 then Z.of_nat (length ms) - 1 else every * (Z.of_nat (length ms) / every) - 1)%Z in
       ok danse_of (n_danse s) /\ (if loc then ok local_of (n_local s) else n_local s = empty C) /\ (if centr then ok centr_of (n_centr s) else n_centr s = empty C))).
    { cbv zeta. induction ms as [|x ms IH] using rev_ind.
      - cbn [run fold_left length]. assert (L : (-1 = if Z.leb every 1 then Z.of_nat 0 - 1 else every * (Z.of_nat 0 / every) - 1)%Z) by (destruct (Z.leb_spec every 1); [reflexivity | rewrite Z.div_small by lia; lia]).
        split; [reflexivity|]. assert (R : forall sel, recorded cond sel every [] (empty C)) by (intros sel; split; reflexivity). split; [split; [apply R | exact L]|]. split; [destruct loc; [split; [apply R | exact L] | reflexivity] | destruct centr; [split; [apply R | exact L] | reflexivity]].
      - unfold run in *. rewrite fold_left_app. cbn [fold_left]. set (s := fold_left _ ms _) in *. destruct IH as (I0 & I1 & I2 & I3).
        destruct x as [[d l] c]. unfold update. cbn [n_i n_danse n_local n_centr]. rewrite I0, app_length. cbn [length]. replace (length ms + 1)%nat with (S (length ms)) by lia.
        split; [reflexivity|]. unfold recorded in *. rewrite app_length. cbn [length]. replace (length ms + 1)%nat with (S (length ms)) by lia.
        assert (A : forall (sel : list M * list M * list M -> list M) r, (r_iters r = due every (length ms) /\ r_cols r = map (fun i => map cond (nth i (map sel ms) [])) (due every (length ms))) /\ r_last r = (if Z.leb every 1 then Z.of_nat (length ms) - 1 else every * (Z.of_nat (length ms) / every) - 1)%Z ->
          let r' := consider cond true every (length ms) (sel (d, l, c)) r in (r_iters r' = due every (S (length ms)) /\ r_cols r' = map (fun i => map cond (nth i (map sel (ms ++ [(d, l, c)])) [])) (due every (S (length ms)))) /\ r_last r' = (if Z.leb every 1 then Z.of_nat (S (length ms)) - 1 else every * (Z.of_nat (S (length ms)) / every) - 1)%Z).
        { intros sel r [[R1 R2] R3]. destruct (consider_inv sel every ms (d, l, c) r eq_refl R1 R2 R3) as (Q1 & Q2 & Q3). split; [split; assumption | exact Q3]. }
        split; [exact (A danse_of _ I1)|]. split; [destruct loc; [exact (A local_of _ I2) | exact I2] | destruct centr; [exact (A centr_of _ I3) | exact I3]]. }
    cbv zeta in G. destruct G as (_ & [G1 _] & G2 & G3). split; [exact G1|]. split; [destruct loc; [exact (proj1 G2) | exact G2] | destruct centr; [exact (proj1 G3) | exact G3]].
  Qed.
  Lemma none_recorded loc centr every ms : let s := run cond false loc centr every ms in n_danse s = empty C /\ n_local s = empty C /\ n_centr s = empty C.
  Proof.
    cbv zeta. induction ms as [|x ms IH] using rev_ind; [repeat split|]. unfold run in *. rewrite fold_left_app. cbn [fold_left]. destruct IH as (I1 & I2 & I3). destruct x as [[d l] c]. unfold update, consider. cbn [andb n_danse n_local n_centr].
    destruct loc, centr; repeat split; assumption.
  Qed.
End Props.
