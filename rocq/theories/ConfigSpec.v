(** Specification vocabulary for configurations. *)
From Verif Require Import Base Config.
From Coq Require Import String QArith Qabs.

(** value at a path of a mapping / of an object *)
Fixpoint dict_path (p : list string) (d : val) : option val :=
  match p with
  | [] => Some d
  | k :: r => match d with VDict kvs => match assoc k kvs with Some v => dict_path r v | None => None end | _ => None end
  end.
Fixpoint obj_path (p : list string) (o : val) : option val :=
  match p with
  | [] => Some o
  | k :: r => match o with VObj _ at_ => match assoc k at_ with Some v => obj_path r v | None => None end | _ => None end
  end.
(** the field at the path is annotated as a numpy array *)
Fixpoint array_field (p : list string) (o : val) : bool :=
  match p, o with
  | [k], VObj ts _ => match assoc k ts with Some b => b | None => false end
  | k :: r, VObj _ at_ => match assoc k at_ with Some v => array_field r v | None => false end
  | _, _ => false
  end.
Definition is_dict (v : val) : bool := match v with VDict _ => true | _ => false end.
(** no key twice in a mapping, at any level *)
Definition unique_keys (d : val) : Prop := forall p kvs, dict_path p d = Some (VDict kvs) -> NoDup (map fst kvs).
(** the path leaves the mapping at some key that is not in it *)
Fixpoint absent (p : list string) (d : val) : Prop :=
  match p, d with
  | k :: r, VDict kvs => match assoc k kvs with None => True | Some v => is_dict v = true /\ absent r v end
  | _, _ => False
  end.
(** what a value of the file becomes *)
Definition converts (lit : string -> res (list val)) (arr : bool) (v w : val) : Prop :=
  match v with
  | VStr s => if bracketed s then exists l, lit s = Ok l /\ w = (if arr then VArr l else VList l) else w = v
  | VList l => w = if arr then VArr l else VList l
  | _ => w = v
  end.

(** the value is, or denotes, a list *)
Definition listy (v : val) : bool := match v with VList _ => true | VStr s => bracketed s | _ => false end.
(** the file suits the object: sections name existing sub-objects, lists name declared
    fields, bracketed strings denote lists *)
Fixpoint fits (lit : string -> res (list val)) (d o : val) : Prop :=
  match d with
  | VDict kvs =>
      (fix go kvs := match kvs with
        | [] => True
        | (k, v) :: r =>
            (exists ts a, o = VObj ts a /\
               (listy v = true -> assoc k ts <> None) /\
               match v with
               | VStr s => bracketed s = true -> exists l, lit s = Ok l
               | VDict _ => match assoc k a with Some sub => fits lit v sub | None => False end
               | _ => True
               end) /\ go r
        end) kvs
  | _ => True
  end.

(** ** equality *)
Fixpoint array_free (v : fv) : bool :=
  match v with FAtom _ => true | FArr _ _ => false | FObj a => forallb (fun p => array_free (snd p)) a end.
(** same attributes in the same order, arrays and sub-objects at the same places *)
Fixpoint same_class (a b : fv) : bool :=
  match a, b with
  | FAtom _, FAtom _ => true
  | FArr _ _, FArr _ _ => true
  | FObj x, FObj y =>
      (fix go x y := match x, y with
        | [], [] => true
        | (k, v) :: x', (k', v') :: y' => String.eqb k k' && same_class v v' && go x' y'
        | _, _ => false
        end) x y
  | _, _ => false
  end.
(** attribute names are unique *)
Fixpoint wf_attrs (v : fv) : Prop :=
  match v with
  | FObj a => NoDup (map fst a) /\ (fix go l := match l with [] => True | (_, w) :: r => wf_attrs w /\ go r end) a
  | _ => True
  end.
(** equal up to the tolerance of [np.allclose], relative to the first *)
Fixpoint close_to (a b : fv) : Prop :=
  match a, b with
  | FAtom x, FAtom y => x = y
  | FArr sa da, FArr sb db => sa = sb /\ forall i, (i < List.length da)%nat -> (i < List.length db)%nat ->
      (Qabs (nth i db 0 - nth i da 0) <= (1 # 100000000) + (1 # 100000) * Qabs (nth i da 0))%Q
  | FObj x, FObj y =>
      (fix go x y := match x, y with
        | [], [] => True
        | (k, v) :: x', (k', v') :: y' => k = k' /\ close_to v v' /\ go x' y'
        | _, _ => False
        end) x y
  | _, _ => False
  end.
