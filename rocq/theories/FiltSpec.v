(** Specification vocabulary for filter updates. *)
From Verif Require Import Base Filt.
Set Implicit Arguments.
Open Scope nat_scope.

(** The four estimators of a node. *)
Inductive which := Danse | Local | Centr | Ssbc.

Section Spec.
  Variables Fr M W : Type.
  Notation est := (est M W).
  Notation fnode := (fnode M W).
  Notation uevent := (uevent Fr).

  Definition estimator (wh : which) (n : fnode) : option est :=
    match wh with Danse => Some (fn_danse n) | Local => fn_local n | Centr => fn_centr n | Ssbc => fn_ssbc n end.
  (** its frame, and the VAD decision that applies to it *)
  Definition frame (wh : which) (u : uevent) : Fr :=
    match wh with Danse => u_y u | Local => u_yl u | Centr => u_yc u | Ssbc => u_ys u end.
  Definition vad (wh : which) (u : uevent) : bool := match wh with Centr => u_cvad u | _ => u_vad u end.

  Definition speech_frames (us : list uevent) : nat := length (filter (@u_vad _) us).
  Definition noise_frames (us : list uevent) : nat := length (filter (fun u => negb (u_vad u)) us).

  (** Nothing has happened yet: the estimators are disabled, no frame has been
      processed, and each of them has the same filter for all iterations. *)
  Definition fresh (n : fnode) : Prop :=
    fn_i n = 0 /\ fn_yy n = 0 /\ fn_nn n = 0 /\
    forall wh e, estimator wh n = Some e ->
      e_start e = false /\ e_ups e = 0 /\ exists w0, forall w, In w (e_w e) -> w = w0.

  (** The filter of an estimator for iteration [i]. *)
  Definition filter_at (wh : which) (n : fnode) (i : nat) (w : W) : Prop :=
    exists e, estimator wh n = Some e /\ nth_error (e_w e) i = Some w.

  (** A filter update takes place between [n] and [n']. *)
  Definition updated (wh : which) (n n' : fnode) : Prop :=
    exists e e', estimator wh n = Some e /\ estimator wh n' = Some e' /\ e_ups e' = S (e_ups e).
End Spec.
