(** Model of the network-wide filters (danse_toolbox/d_post.py 2380-2448). *)
From Verif Require Import Base Buffers Cx.
From Coq Require Import Reals.
Local Open Scope R_scope.

(** array of filters: bins, iterations, channels *)
Record arr3 := mkA3 { dF : nat; dI : nat; dC : nat; at3 : nat -> nat -> nat -> cx }.
Definition cinv (a : cx) : cx := let n := re a * re a + im a * im a in mkC (re a / n) (- im a / n).
Definition cdiv (a b : cx) : cx := (a * cinv b)%cx.
(** [np.mean(., axis=0)] *)
Definition mean_bins (F : nat) (f : nat -> cx) : cx := (cr (/ INR F) * csum F f)%cx.
Definition a0 : arr3 := mkA3 0 0 0 (fun _ _ _ => czero).

(** 2398-2401: local filters; the slice stops at the last channel *)
Definition local_block (w : arr3) (nk : nat) : list (list cx) :=
  map (fun i => map (fun m => mean_bins (dF w) (fun b => at3 w b i m)) (seq 0 (Nat.min nk (dC w)))) (seq 0 (dI w)).
(** 2405-2432: filters of another node; [g] is the index of its fused signal in the
    filters of the node.  Other shapes than equal ones are refused (simplified: numpy
    broadcasts a dimension of size one). *)
Definition other_block (ti : bool) (w e : arr3) (g : nat) : res (list (list cx)) :=
  if negb (Nat.eqb (dF e) (dF w) && Nat.eqb (dI e) (dI w)) then Err ValueError
  else if Nat.leb (dC w) g then Err IndexError
  else if ti && Nat.eqb (dC e) 0 then Err IndexError
  else
    let C := if ti then (dC e - 1)%nat else dC e in
    let val i m b := if ti then (cdiv (at3 e b (S i) m) (at3 e b (S i) C) * at3 w b i g)%cx else (at3 e b (S i) m * at3 w b i g)%cx in
    (** 2434-2437: zeros for the first iteration *)
    Ok (repeat czero C :: map (fun i => map (fun m => mean_bins (dF w) (val i m)) (seq 0 C)) (seq 0 (dI w - 1))).
(** [np.concatenate(., axis=1)] of arrays with the same number of rows *)
Definition beside (a b : list (list cx)) : res (list (list cx)) :=
  if Nat.eqb (length a) (length b) then Ok (map (fun p => fst p ++ snd p) (combine a b)) else Err ValueError.
(** 2389-2443: one node; the state is the filter so far and the count of neighbours *)
Definition netwide_node (ti : bool) (filters ext : list arr3) (nsens : list nat) (k : nat) : res (list (list cx)) :=
  let w := nth k filters a0 in
  do r <- foldM (fun st q =>
      if Nat.eqb q k then do y <- beside (fst st) (local_block w (nth k nsens 0%nat)); Ok (y, snd st)
      else
        let g := if ti then nth k nsens 0%nat else (nth k nsens 0 + snd st)%nat in
        do c <- other_block ti w (nth q ext a0) g;
        do y <- beside (fst st) c; Ok (y, S (snd st)))
    (seq 0 (length filters)) (repeat [] (dI w), 0%nat);
  Ok (fst r).
Definition netwide (ti : bool) (filters ext : list arr3) (nsens : list nat) : res (list (list (list cx))) :=
  mapM (netwide_node ti filters ext nsens) (seq 0 (length filters)).
