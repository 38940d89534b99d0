(** C95: recorded condition numbers. *)
From Verif Require Import Base CondNum CondNumSpec CondNumFacts.
Set Implicit Arguments.

(** After any number of updates of a node, for any record interval, the record of each kind
    of matrices has one column for each due iteration, in order, labelled with it: the
    condition numbers, one per frequency, of the matrices of that iteration.  Kinds that
    are not computed have no record; without the option there is none. *)
Theorem C95_recorded (M C : Type) (cond : M -> C) loc centr every ms : let s := run cond true loc centr every ms in
  recorded cond danse_of every ms (n_danse s) /\
  (if loc then recorded cond local_of every ms (n_local s) else n_local s = empty C) /\
  (if centr then recorded cond centr_of every ms (n_centr s) else n_centr s = empty C).
Proof. apply all_recorded. Qed.
Theorem C95_not_saved (M C : Type) (cond : M -> C) loc centr every ms : let s := run cond false loc centr every ms in
  n_danse s = empty C /\ n_local s = empty C /\ n_centr s = empty C.
Proof. apply none_recorded. Qed.
(** There are as many records as whole intervals in the run. *)
Theorem C95_number every n : (0 < every)%Z -> Z.of_nat (length (due every n)) = (Z.of_nat n / every)%Z.
Proof.
  intros He. induction n as [|n IH]; [reflexivity|]. rewrite due_S, app_length, Nat2Z.inj_add, IH.
  replace (Z.of_nat (S n)) with (Z.of_nat n + 1)%Z by lia.
  pose proof (Z.div_mod (Z.of_nat n) every ltac:(lia)) as D. pose proof (Z.mod_pos_bound (Z.of_nat n) every ltac:(lia)) as B.
  set (q := (Z.of_nat n / every)%Z) in *. set (m := (Z.of_nat n mod every)%Z) in *.
  destruct (Z.eq_dec m (every - 1)) as [Em|Em].
  - assert (E : ((Z.of_nat n + 1) = 0 + (q + 1) * every)%Z) by (rewrite D, Em; ring).
    assert (E0 : ((Z.of_nat n + 1) mod every = 0)%Z) by (rewrite E, Z_mod_plus_full; apply Z.mod_small; lia).
    assert (E1 : ((Z.of_nat n + 1) / every = q + 1)%Z) by (rewrite E, Z_div_plus_full by lia; rewrite Z.div_small by lia; ring).
    rewrite E0, E1, orb_true_r. cbn [length]. lia.
  - assert (E : (Z.of_nat n + 1 = (m + 1) + q * every)%Z) by (rewrite D; ring).
    assert (E0 : ((Z.of_nat n + 1) mod every = m + 1)%Z) by (rewrite E, Z_mod_plus_full; apply Z.mod_small; lia).
    assert (E1 : ((Z.of_nat n + 1) / every = q)%Z) by (rewrite E, Z_div_plus_full by lia; rewrite Z.div_small by lia; ring).
    rewrite E0, E1. replace (m + 1 =? 0)%Z with false by (symmetry; apply Z.eqb_neq; lia). replace (every <=? 1)%Z with false by (symmetry; apply Z.leb_gt; lia). cbn [orb length]. lia.
Qed.

Example C95_ex : let ms := map (fun n => ([n; n + 100], [n], [])) (seq 10 7)%nat in let s := run (fun n => n + 1)%nat true true false 3 ms in
  r_iters (n_danse s) = [2; 5]%nat /\ r_cols (n_danse s) = [[13; 113]; [16; 116]]%nat /\ r_cols (n_local s) = [[13]; [16]]%nat /\ n_centr s = empty nat /\ due 1 3 = [0; 1; 2]%nat.
Proof. vm_compute. repeat split. Qed.

Print Assumptions C95_recorded.
Print Assumptions C95_not_saved.
Print Assumptions C95_number.
