(** Specification vocabulary for the selection of files. *)
From Coq Require Import String.
From Verif Require Import Base FileSel.

(** [g] is [f], or a resampled version of it, or a resampled version of that, … *)
Inductive version_of (hz : string) (f : string) : string -> Prop :=
| same_file : version_of hz f f
| resampled g : version_of hz f g -> version_of hz f (twin hz g).
(** what [np.random.choice(np.arange(c), size=n, replace=False)] can return *)
Definition possible_draws (c n : nat) (draws : list nat) : Prop :=
  length draws = n /\ NoDup draws /\ forall i, In i draws -> i < c.
