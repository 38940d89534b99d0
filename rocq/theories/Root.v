(** Model of the choice of a root: siggen/classes.py 456-487 [set_tree_root].  Data and VAD of
    the reference sensor only (0, the default of [_get_snr]); reals with infinities and nan
    instead of floats. *)
From Verif Require Import Base Eval.
From Coq Require Import Reals.
Local Open Scope R_scope.

(** 463-467 *)
Definition root_snr (data : list R) (vad : list bool) : res xreal :=
  do active <- masked vad data;
  Ok (db (mean (squares data)) (mean (squares active))).
(** [np.argmax]: the first nan if there is one, else the first maximum; ValueError for
    nothing *)
Definition above (a b : xreal) : bool := (* a > b, nan above everything *)
  match a, b with
  | _, NaN => false
  | NaN, _ => true
  | PInf, PInf => false
  | PInf, _ => true
  | Fin x, Fin y => if Rlt_dec y x then true else false
  | Fin _, MInf => true
  | _, _ => false
  end.
Fixpoint argmax_from (best : nat) (v : xreal) (i : nat) (l : list xreal) : nat :=
  match l with
  | [] => best
  | x :: l' => if above x v then argmax_from i x (S i) l' else argmax_from best v (S i) l'
  end.
Definition argmax (l : list xreal) : res nat := match l with [] => Err ValueError | x :: l' => Ok (argmax_from 0 x 1 l') end.

(** [rootSelectionMeasure] *)
Inductive measure := Snr | UserDefined (root : option nat) | Other.
(** [None]: no root is set (the network is fully connected, 459-461) *)
Definition set_tree_root (ones : bool) (m : measure) (nodes : list (list R * list bool)) : res (option nat) :=
  if ones then Ok None
  else match m with
  | Snr =>
    do snrs <- mapM (fun nd => root_snr (fst nd) (snd nd)) nodes;
    do i <- argmax snrs;
    Ok (Some i)
  | UserDefined (Some r) => do _ <- get nodes r; Ok (Some r)
  | UserDefined None => Err ValueError
  | Other => Err ValueError
  end.
