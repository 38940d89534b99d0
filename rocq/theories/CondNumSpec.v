(** Specification vocabulary for recorded condition numbers. *)
From Verif Require Import Base CondNum.
Set Implicit Arguments.

(** The iterations at which records are due: the last of every [every] *)
Definition due (every : Z) (n : nat) : list nat := filter (fun i => Z.leb every 1 || Z.eqb ((Z.of_nat i + 1) mod every) 0) (seq 0 n).
(** DANSE, local and centralised matrices *)
Definition danse_of {M} (a : list M * list M * list M) := fst (fst a).
Definition local_of {M} (a : list M * list M * list M) := snd (fst a).
Definition centr_of {M} (a : list M * list M * list M) := snd a.
(** one column for each due iteration, labelled with it: the condition numbers of the
    selected matrices of that iteration *)
Definition recorded {M C} (cond : M -> C) (sel : list M * list M * list M -> list M) (every : Z) (ms : list (list M * list M * list M)) (r : record C) : Prop :=
  r_iters r = due every (length ms) /\ r_cols r = map (fun i => map cond (nth i (map sel ms) [])) (due every (length ms)).
