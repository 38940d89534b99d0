(** Specification for C78: the parts of a signal with and without activity. *)
From Verif Require Import Base.
From Coq Require Import Reals.

(** active ([true]) or inactive ([false]) part of a signal *)
Definition part (b : bool) (d : list R) (vad : list bool) : list R := map fst (filter (fun p => Bool.eqb (snd p) b) (combine d vad)).
