(** Specification vocabulary for external filters. *)
From Verif Require Import Base Cx Ext.
From Coq Require Import Reals.
Open Scope R_scope.

(** All real and imaginary parts lie in [[lo, hi]]. *)
Definition within (lo hi : R) (v : coefs) : Prop := forall f c, lo <= re (v f c) <= hi /\ lo <= im (v f c) <= hi.
(** [ext_trace]: the states before each event and after the last *)
Fixpoint ext_trace (p : xparams) (evs : list (coefs * option R)) (s : xst) : res (list xst) :=
  match evs with
  | [] => Ok [s]
  | ev :: evs' => do s1 <- ext_update p (fst ev) (snd ev) s; do l <- ext_trace p evs' s1; Ok (s :: l)
  end.

(** Event times do not decrease and start at [lo] or later. *)
Fixpoint times_sorted (lo : R) (evs : list (coefs * option R)) : Prop :=
  match evs with
  | [] => True
  | (_, Some t) :: evs' => lo <= t /\ times_sorted t evs'
  | (_, None) :: evs' => False
  end.
