(** Specification vocabulary for exported configurations. *)
From Coq Require Import String.
From Verif Require Import Base Config ConfigSpec.

Definition is_obj (v : val) : bool := match v with VObj _ _ => true | _ => false end.
(** the path runs over declared fields *)
Fixpoint declared (p : list string) (o : val) : Prop :=
  match p with
  | [] => True
  | k :: r => match o with
              | VObj ts a => In k (map fst ts) /\ match assoc k a with Some v => declared r v | None => False end
              | _ => False
              end
  end.
(** what a file can hold in a field (declared as an array, or not): numbers etc., strings
    that do not look like lists, lists or arrays as the field is declared *)
Definition plain (arr : bool) (v : val) : Prop :=
  match v with
  | VAtom _ => True
  | VStr s => bracketed s = false
  | VList _ => arr = false
  | VArr _ => arr = true
  | _ => False
  end.
(** all declared fields, at all levels, exist, once, and hold such values or objects *)
Definition storable (o : val) : Prop :=
  is_obj o = true /\
  forall p v, declared p o -> obj_path p o = Some v ->
    match v with
    | VObj ts a => NoDup (map fst ts) /\ forall k, In k (map fst ts) -> assoc k a <> None
    | _ => plain (array_field p o) v
    end.
(** [o2] has an object with the same declared fields wherever [o] has an object *)
Definition same_fields (o o2 : val) : Prop :=
  forall p ts a, declared p o -> obj_path p o = Some (VObj ts a) -> exists a2, obj_path p o2 = Some (VObj ts a2).
