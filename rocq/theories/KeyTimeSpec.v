(** Specification vocabulary for utterances (C76). *)
From Verif Require Import Base KeyTime.
From Coq Require Import QArith Qround.
Local Open Scope nat_scope.

Definition speech (v : list bool) (i : nat) : Prop := nth_error v i = Some true.
Definition silence (v : list bool) (i : nat) : Prop := nth_error v i = Some false.
(** [a .. b-1] is a pause: silence between two speech samples. *)
Definition pause (v : list bool) (a b : nat) : Prop :=
  0 < a < b /\ speech v (a - 1) /\ speech v b /\ forall i, a <= i < b -> silence v i.
(** It lasts at least [d] seconds at the sampling frequency [fs]. *)
Definition lasts (fs d : Q) (a b : nat) : Prop := (d * fs <= inject_Z (Z.of_nat b - Z.of_nat a))%Q.
(** The first pause that separates two utterances: the shorter ones before it are within an
    utterance. *)
Definition separates (v : list bool) (fs d : Q) (a b : nat) : Prop :=
  pause v a b /\ lasts fs d a b /\ forall a' b', pause v a' b' -> a' < a -> ~ lasts fs d a' b'.
Definition first_speech (v : list bool) (i : nat) : Prop := speech v i /\ forall j, j < i -> silence v j.

(** Sample that an instant designates (the empty one designates the start of the signal). *)
Inductive designates (v : list bool) (fs d : Q) : option instant -> Z -> Prop :=
| d_none : designates v fs d None 0
| d_end a b : separates v fs d a b -> designates v fs d (Some EndFirst) (Z.of_nat a)
| d_beg i : first_speech v i -> designates v fs d (Some BegFirst) (Z.of_nat i)
| d_second x a b : separates v fs d a b -> designates v fs d (Some (BegSecond x)) (Z.of_nat b + Qfloor (x * fs))
| d_after x : designates v fs d (Some (After x)) (Qfloor (x * fs)).
