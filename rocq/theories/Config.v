(** Model of the YAML loading and of the equality of parameter objects
    (danse_toolbox/dataclass_methods.py) and of the export-folder check
    (danse_toolbox/d_classes.py). *)
From Verif Require Import Base.
From Coq Require Import String Ascii QArith Qabs.
Local Open Scope string_scope.

(** ** load_from_yaml *)
(** Values: numbers, booleans etc. ([VAtom]), strings, lists, numpy arrays, YAML
    mappings, and dataclass instances.  An instance has its declared fields, with
    whether they are annotated as numpy arrays, and its attributes. *)
Inductive val :=
| VAtom (z : Z)
| VStr (s : string)
| VList (l : list val)
| VArr (l : list val)
| VDict (kvs : list (string * val))
| VObj (types : list (string * bool)) (attrs : list (string * val)).

Fixpoint assoc {A} (k : string) (l : list (string * A)) : option A :=
  match l with [] => None | (k', v) :: r => if String.eqb k' k then Some v else assoc k r end.
(** assignment in a dictionary: in place, or at the end *)
Fixpoint assoc_set {A} (k : string) (v : A) (l : list (string * A)) : list (string * A) :=
  match l with
  | [] => [(k, v)]
  | (k', v') :: r => if String.eqb k' k then (k', v) :: r else (k', v') :: assoc_set k v r
  end.

(** 281: at least two characters, the first '[' and the last ']' *)
Definition bracketed (s : string) : bool :=
  match s with
  | String c r => Ascii.eqb c "[" && (match String.length r with 0%nat => false | S n => match String.get n r with Some d => Ascii.eqb d "]" | None => false end end)
  | EmptyString => false
  end.

Section Load.
(** [ast.literal_eval] of a bracketed string: the list it denotes, or an error *)
Context (lit : string -> res (list val)).
(** 277-287 [_interpret_lists] *)
Fixpoint interp (d : val) : res val :=
  match d with
  | VDict kvs =>
      do kvs' <- (fix go kvs := match kvs with
        | [] => Ok []
        | (k, v) :: r =>
            do v' <- (match v with
                      | VStr s => if bracketed s then (do l <- lit s; Ok (VList l)) else Ok v
                      | VDict _ => interp v
                      | _ => Ok v
                      end);
            do r' <- go r; Ok ((k, v') :: r')
        end) kvs;
      Ok (VDict kvs')
  | _ => Ok d
  end.
(** [getattr] *)
Definition getattr (o : val) (k : string) : res val :=
  match o with VObj _ at_ => match assoc k at_ with Some v => Ok v | None => Err AttributeError end | _ => Err AttributeError end.
Definition setattr (o : val) (k : string) (v : val) : res val :=
  match o with VObj ts at_ => Ok (VObj ts (assoc_set k v at_)) | _ => Err AttributeError end.
(** 292-301 [_deal_with_arrays]; [fields] of something else than a dataclass is a
    TypeError *)
Fixpoint arrays (d ref : val) : res val :=
  match d with
  | VDict kvs =>
      do kvs' <- (fix go kvs := match kvs with
        | [] => Ok []
        | (k, v) :: r =>
            do v' <- (match v with
                      | VList l => match ref with
                                   | VObj ts _ => match assoc k ts with Some true => Ok (VArr l) | Some false => Ok v | None => Err KeyError end
                                   | _ => Err TypeError
                                   end
                      | VDict _ => do sub <- getattr ref k; arrays v sub
                      | _ => Ok v
                      end);
            do r' <- go r; Ok ((k, v') :: r')
        end) kvs;
      Ok (VDict kvs')
  | _ => Ok d
  end.
(** 306-317 [_load_into_dataclass] *)
Fixpoint load (d o : val) : res val :=
  match d with
  | VDict kvs =>
      (fix go kvs o := match kvs with
        | [] => Ok o
        | (k, v) :: r =>
            do o' <- (match v with
                      | VDict _ => do sub <- getattr o k; do sub' <- load v sub; setattr o k sub'
                      | _ => setattr o k v
                      end);
            go r o'
        end) kvs o
  | _ => Ok o
  end.
(** 258-320, up to the re-run of the [__post_init__] hooks (321-327), which is not
    modelled; [d] is the mapping read from the file *)
Definition load_from_yaml (d o : val) : res val :=
  do d1 <- interp d; do d2 <- arrays d1 o; load d2 o.
End Load.

(** ** dataclasses_equal *)
(** attributes: other values ([FAtom], compared by [!=]), arrays, dataclasses *)
Inductive fv :=
| FAtom (z : Z)
| FArr (shape : list nat) (data : list Q)
| FObj (attrs : list (string * fv)).
(** [np.allclose(a, b)] for arrays of the same shape: relative to [b] *)
Definition close1 (a b : Q) : bool := Qle_bool (Qabs (a - b)) ((1 # 100000000) + (1 # 100000) * Qabs b).
Definition allclose (a b : list Q) : bool := forallb (fun p => close1 (fst p) (snd p)) (combine a b).
Definition shape_eqb (a b : list nat) : bool := if list_eq_dec Nat.eq_dec a b then true else false.
(** truth value of [x != array] for a number [x]: ambiguous unless there is one entry;
    an empty array counts as false *)
Definition ne_array (x : Z) (data : list Q) : res bool :=
  match data with
  | [] => Ok false
  | [q] => Ok (negb (Qeq_bool (inject_Z x) q))
  | _ => Err ValueError
  end.
(** 332-347.  An [FAtom] has no [__dict__]: AttributeError. *)
Fixpoint eqd (d1 d2 : fv) : res bool :=
  match d1 with
  | FObj a1 =>
      (fix go l := match l with
        | [] => Ok true
        | (k, v) :: r =>
            do ok <- (match v with
              | FObj _ => match d2 with
                          | FObj a2 => match assoc k a2 with Some v2 => eqd v v2 | None => Err AttributeError end
                          | _ => Err AttributeError
                          end
              | _ =>
                  match d2 with
                  | FObj a2 =>
                      match assoc k a2 with
                      | None => Err KeyError
                      | Some (FArr sh2 x2) =>
                          match v with
                          | FArr sh1 x1 => Ok (shape_eqb sh2 sh1 && allclose x2 x1)
                          | _ => Err AttributeError
                          end
                      | Some (FAtom z2) =>
                          match v with
                          | FAtom z1 => Ok (Z.eqb z2 z1)
                          | FArr _ x1 => do n <- ne_array z2 x1; Ok (negb n)
                          | FObj _ => Ok false
                          end
                      | Some (FObj _) =>
                          (* comparing an instance with something else *)
                          match v with
                          | FArr _ [] => Ok true
                          | FArr _ (_ :: _ :: _) => Err ValueError
                          | _ => Ok false
                          end
                      end
                  | _ => Err AttributeError
                  end
              end);
            if ok then go r else Ok false
        end) a1
  | _ => Err AttributeError
  end.

(** ** check_export_folder *)
(** What the path names: nothing, a file, or a folder with entries (name, whether the
    operating system lets it be deleted). *)
Inductive fs := FsNone | FsFile | FsDir (entries : list (string * bool)).
(** d_utils.py 3-21: failures to delete are only printed *)
Definition wipe_folder (entries : list (string * bool)) : list (string * bool) := filter (fun e => negb (snd e)) entries.
(** 182-184: reads answers until a valid one; no more input is an EOFError *)
Fixpoint ask (inputs : list string) : res string :=
  match inputs with
  | [] => Err OutOfFuel
  | i :: r => if existsb (String.eqb i) ["y"; "Y"; "n"; "N"] then Ok i else ask r
  end.
(** 165-196; creating a folder where a file is fails (FileExistsError) *)
Definition check_export_folder (bypass over : bool) (state : fs) (inputs : list string) : res (bool * fs) :=
  if bypass then Ok (true, state)
  else match state with
  | FsDir entries =>
      if over then Ok (true, state)
      else match entries with
           | [] => Ok (true, state)
           | _ =>
               do i <- ask inputs;
               if existsb (String.eqb i) ["n"; "N"] then Ok (false, state)
               else Ok (true, FsDir (wipe_folder entries))
           end
  | FsNone => Ok (true, FsDir [])
  | FsFile => Err ValueError
  end.
