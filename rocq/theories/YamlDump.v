(** Model of the export of a parameter object as a YAML file
    (danse_toolbox/dataclass_methods.py). *)
From Coq Require Import String.
From Verif Require Import Base Config.

(** 229-247 [_convert_to_dict]: the declared fields only, in their order; sub-objects as
    mappings, arrays as lists, everything else as it is.  [fields] of something else than
    a dataclass is a TypeError; a declared field that is not there an AttributeError. *)
Fixpoint to_dict (o : val) : res val :=
  match o with
  | VObj ts a =>
      let a' := (fix go l := match l with
        | [] => []
        | (k, v) :: r => (k, match v with VObj _ _ => to_dict v | VArr l => Ok (VList l) | _ => Ok v end) :: go r
        end) a in
      do kvs <- mapM (fun kt : string * bool =>
                        match assoc (fst kt) a' with
                        | None => Err AttributeError
                        | Some rv => do v <- rv; Ok (fst kt, v)
                        end) ts;
      Ok (VDict kvs)
  | _ => Err TypeError
  end.

(** [yaml.dump] sorts the keys of mappings (default [sort_keys=True]).  Mappings inside
    lists are left alone here: dictionaries compare without regard to order. *)
Fixpoint insert_key (kv : string * val) (l : list (string * val)) : list (string * val) :=
  match l with
  | [] => [kv]
  | kv' :: r => if String.leb (fst kv) (fst kv') then kv :: l else kv' :: insert_key kv r
  end.
Definition sort_keys (l : list (string * val)) : list (string * val) := fold_right insert_key [] l.
Fixpoint sorted (d : val) : val :=
  match d with
  | VDict kvs => VDict (sort_keys ((fix go l := match l with [] => [] | (k, v) :: r => (k, sorted v) :: go r end) kvs))
  | _ => d
  end.

(** 217-255 [dump_to_yaml_template]: the mapping that reading the file gives back.  That
    PyYAML reads back what it has written (numbers, booleans, None, strings, lists,
    mappings) is taken for granted. *)
Definition dump_to_yaml_template (o : val) : res val := do d <- to_dict o; Ok (sorted d).
