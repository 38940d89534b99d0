(** Model of the record of condition numbers kept for the condition number plots:
    danse_toolbox/d_classes.py 19-133 ([ConditionNumbers], [compute_condition_numbers]),
    966-983, and 2127-2189 (part of [spatial_covariance_matrix_update]). *)
From Verif Require Import Base.
Set Implicit Arguments.

Section Cond.
  (** matrices, condition numbers; [cond] is [np.linalg.cond] *)
  Variables (M C : Type) (cond : M -> C).

  (** 94-127 for [loopAxis=0]: one number per frequency *)
  Definition condition_numbers (a : list M) : list C := map cond a.

  (** One kind of matrices at one node: iteration of the last record, iterations and
      condition numbers of all records (one column each). *)
  Record record := mkRec { r_last : Z; r_iters : list nat; r_cols : list (list C) }.
  (** 967-968, 981-983 *)
  Definition empty : record := mkRec (-1) [] [].
  (** 50-77 *)
  Definition add (i : nat) (a : list M) (r : record) : record :=
    mkRec (r_last r) (r_iters r ++ [i]) (r_cols r ++ [condition_numbers a]).
  (** 2127-2137, 2151-2161, 2178-2188; [every] is [saveConditionNumberEvery] *)
  Definition consider (save : bool) (every : Z) (i : nat) (a : list M) (r : record) : record :=
    if save && Z.leb every (Z.of_nat i - r_last r)
    then let r' := add i a r in mkRec (Z.of_nat i) (r_iters r') (r_cols r')
    else r.

  (** DANSE, local and centralised matrices of a node *)
  Record node := mkNode { n_i : nat; n_danse : record; n_local : record; n_centr : record }.
  Definition start_node : node := mkNode 0 empty empty empty.
  (** One update of a node in an online run without pre-given filters (1291-1330), given its
      correlation matrices after their update *)
  Definition update (save loc centr : bool) (every : Z) (s : node) (a : list M * list M * list M) : node :=
    let '(d, l, c) := a in
    mkNode (S (n_i s)) (consider save every (n_i s) d (n_danse s))
      (if loc then consider save every (n_i s) l (n_local s) else n_local s)
      (if centr then consider save every (n_i s) c (n_centr s) else n_centr s).
  Definition run (save loc centr : bool) (every : Z) (ms : list (list M * list M * list M)) : node :=
    fold_left (update save loc centr every) ms start_node.
End Cond.
