(** Model of the delay line, of the sampling-rate-offset controllers and of the
    topology helpers of dxcpphat. *)
From Verif Require Import Base.
From Coq Require Import Reals.

(** ** dxcpphat/delay_buffer.py: frames are of type [A], [z] is the zero frame *)
Section Delay.
Context {A : Type} (z : A).
Record dbuf := mkDB { dpos : nat; dat : list A }.
(** 9-15 *)
Definition db_new (n : nat) : dbuf := mkDB 0 (repeat z n).
(** 17-19; [x % 0] is a ZeroDivisionError, but with length 0 the store fails first *)
Definition db_write (d : dbuf) (x : A) : res dbuf :=
  match get (dat d) (dpos d) with
  | Ok _ => Ok (mkDB ((dpos d + 1) mod length (dat d)) (upd (dpos d) x (dat d)))
  | Err e => Err e
  end.
(** 21-22 *)
Definition db_read (d : dbuf) : res A := get (dat d) (dpos d).
(** 24-26 *)
Definition db_clear (d : dbuf) : dbuf := mkDB 0 (repeat z (length (dat d))).
Inductive dop := DWrite (x : A) | DRead | DClear.
Definition db_step (d : dbuf) (o : dop) : res (list A * dbuf) :=
  match o with
  | DWrite x => do d' <- db_write d x; Ok ([], d')
  | DRead => do v <- db_read d; Ok ([v], d)
  | DClear => Ok ([], db_clear d)
  end.
(** values read by a sequence of operations, oldest first *)
Fixpoint db_run (d : dbuf) (os : list dop) : res (list A) :=
  match os with
  | [] => Ok []
  | o :: os' => do p <- db_step d o; do r <- db_run (snd p) os'; Ok (fst p ++ r)
  end.
End Delay.
Arguments dbuf : clear implicits.
Arguments dop : clear implicits.

(** ** dxcpphat/sro_estimation.py *)
(** 208-227 [DXCPPhaT.process_data]: input buffer, execution counter and the rest of
    the estimator state [S], refreshed from the buffer by [update] ([_stateupdate]).
    [frame] is the input frame size, [shift] the FFT shift. *)
Section Est.
Context {A S : Type} (update : list A -> S -> S) (frame shift : nat).
Record est := mkEst { ibuf : list A; cnt : nat; sta : S }.
Definition est_new (size : nat) (z : A) (s0 : S) : est := mkEst (repeat z size) 1 s0.
Definition process_data (e : est) (x : list A) : res est :=
  if negb (Nat.eqb (length x) frame) then Err ValueError
  else
    let b := skipn frame (ibuf e) ++ x in
    let hit := Nat.eqb (cnt e) (shift / frame) in
    Ok (mkEst b ((if hit then 0 else cnt e) + 1) (if hit then update b (sta e) else sta e)).
Fixpoint process_all (e : est) (xs : list (list A)) : res est :=
  match xs with [] => Ok e | x :: xs' => do e' <- process_data e x; process_all e' xs' end.
End Est.
Arguments est : clear implicits.

(** 105-111 [CL_DXCPPhaT_Simple.process]: controller state [(dSRO, SRO)], [r] the raw
    estimate *)
Local Open Scope R_scope.
Definition simple_ctrl (st : R * R) (acs r : R) : R * R :=
  let d := (1 - acs) * fst st + acs * r in
  let s := snd st + / 100 * d in
  (d, if Rlt_dec s (-100) then -100 else if Rlt_dec 100 s then 100 else s).
Definition simple_run (inp : list (R * R)) : R * R := fold_left (fun st p => simple_ctrl st (fst p) (snd p)) inp (0, 0).

(** 26-40, 60-70 [CL_DXCPPhaT.process]: buffered estimates, newest first; [acs] is
    whether the ACS value is 1; [k1 k2] the last two entries of [K_Nom] (its first is
    0) and [c1 c2] those of [K_Denom] *)
Record imc := mkImc { ell : nat; dS : R * R * R; sS : R * R * R }.
Definition imc_new : imc := mkImc 0 (0, 0, 0) (0, 0, 0).
Definition imc_step (k1 k2 c1 c2 : R) (delay : nat) (st : imc) (acs : bool) (r : R) : imc :=
  let d := if acs then r else 0 in
  let d := if Nat.leb (ell st) delay then 0 else d in
  let '(d0, d1, _) := dS st in
  let '(s0, s1, _) := sS st in
  let s := 0 * d + k1 * d0 + k2 * d1 - (c1 * s0 + c2 * s1) in
  mkImc (ell st + 1) (d, d0, d1) (s, s0, s1).
(** [SRO_est_curr] with [SRO_est_op = 0] *)
Definition imc_out (st : imc) : R := fst (fst (sS st)).
Definition imc_run (k1 k2 c1 c2 : R) (delay : nat) (inp : list (bool * R)) : imc :=
  fold_left (fun st p => imc_step k1 k2 c1 c2 delay st (fst p) (snd p)) inp imc_new.
Local Close Scope R_scope.

(** ** dxcpphat/demo_utils.py: a topology is a list of levels, a level a list of
    branches, a branch a list of node names (numbers here: names are only compared) *)
(** 341-345 *)
Definition is_unique_list (l : list nat) : bool := forallb (fun e => negb (Nat.ltb 1 (count_occ Nat.eq_dec l e))) l.
(** 380-399: one branch; [None] is [return False]; accumulates [level_all_nodes] and
    [level_leaf_nodes] *)
Fixpoint v_branch (wl enc prev : list nat) (lid nid : nat) (branch : list nat) (acc : list nat * list nat)
  : option (list nat * list nat) :=
  match branch with
  | [] => Some acc
  | n :: b' =>
      if negb (memN n wl) then None
      else let alln := fst acc ++ [n] in
      if Nat.ltb 0 nid && memN n enc then None
      else if Nat.eqb nid 0 && Nat.ltb 0 lid then
        (if negb (memN n prev) then None else v_branch wl enc prev lid (S nid) b' (alln, snd acc))
      else v_branch wl enc prev lid (S nid) b' (alln, snd acc ++ [n])
  end.
Fixpoint v_level (wl enc prev : list nat) (lid : nat) (level : list (list nat)) (acc : list nat * list nat)
  : option (list nat * list nat) :=
  match level with
  | [] => Some acc
  | b :: l' =>
      if Nat.ltb (length b) 2 then None
      else match v_branch wl enc prev lid 0 b acc with
           | None => None
           | Some acc' => v_level wl enc prev lid l' acc'
           end
  end.
(** 366-408 *)
Fixpoint v_levels (wl enc prev : list nat) (lid : nat) (levels : list (list (list nat))) : bool :=
  match levels with
  | [] => true
  | level :: r =>
      if Nat.eqb (length level) 0 then false
      else if Nat.eqb lid 0 && Nat.ltb 1 (length level) then false
      else match v_level wl enc prev lid level ([], []) with
           | None => false
           | Some (alln, leafs) =>
               if negb (is_unique_list alln) then false
               else v_levels wl (enc ++ leafs) leafs (S lid) r
           end
  end.
(** 348-409 *)
Definition verify_topology (levels : list (list (list nat))) (wl : list nat) : bool :=
  if Nat.eqb (length levels) 0 then false else v_levels wl [] [] 0 levels.

(** 411-426 *)
Definition add_new (nodes : list nat) (n : nat) : list nat := if memN n nodes then nodes else nodes ++ [n].
Definition unique_nodes (levels : list (list (list nat))) : list nat :=
  fold_left (fun acc level => fold_left (fun acc branch => fold_left add_new branch acc) level acc) levels [].
(** [list.index] *)
Fixpoint index_of (n : nat) (l : list nat) : res nat :=
  match l with
  | [] => Err ValueError
  | m :: l' => if Nat.eqb m n then Ok 0 else do i <- index_of n l'; Ok (S i)
  end.
(** 443-450 *)
Fixpoint set_delays (nodes : list nat) (leafs : list nat) (v : Z) (ds : list Z) : res (list Z) :=
  match leafs with
  | [] => Ok ds
  | n :: l' => do i <- index_of n nodes; set_delays nodes l' v (upd i v ds)
  end.
Fixpoint delay_level (nodes : list nat) (v : Z) (level : list (list nat)) (ds : list Z) : res (list Z) :=
  match level with
  | [] => Ok ds
  | b :: l' => do ds' <- set_delays nodes (tl b) v ds; delay_level nodes v l' ds'
  end.
Fixpoint delay_levels (nodes : list nat) (d : Z) (lid : nat) (levels : list (list (list nat))) (ds : list Z) : res (list Z) :=
  match levels with
  | [] => Ok ds
  | level :: r => do ds' <- delay_level nodes (Z.of_nat lid * d)%Z level ds; delay_levels nodes d (S lid) r ds'
  end.
(** 428-451 *)
Definition async_delays (levels : list (list (list nat))) (d : Z) : res (list Z) :=
  let nodes := unique_nodes levels in
  do ds <- delay_levels nodes d 0 levels (repeat 0%Z (length nodes)); Ok (tl ds).
