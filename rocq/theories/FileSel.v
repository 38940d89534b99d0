(** Model of the random selection of noise files
    (/repo/siggen/classes.py 262-309, in [WASNparameters.__post_init__]).

    Simplifications: the folder is given as the list of its files in the order in which
    [Path.glob] lists them, without folders and without the diffuse-babble file (266-274);
    files are named by their paths; [numpy]'s draws are an argument. *)
From Coq Require Import String Ascii.
From Verif Require Import Base.
Local Open Scope string_scope.

(** 280: the name a resampled version of the file would have; [hz] is [str(int(fs))] *)
Definition twin (hz : string) (f : string) : string :=
  append (substring 0 (String.length f - 4) f) (append "_" (append hz "Hz.wav")).
Definition has (f : string) (files : list string) : bool := existsb (String.eqb f) files.
(** [list.remove]: the first element equal to [f] *)
Fixpoint remove_first (f : string) (files : list string) : list string :=
  match files with
  | [] => []
  | g :: files' => if String.eqb f g then files' else g :: remove_first f files'
  end.
(** 279-282: [for file in files: … files.remove(file)]; the list iterator keeps the
    position [i] and ends when it reaches the current length *)
Fixpoint drop_loop (hz : string) (fuel i : nat) (files : list string) : list string :=
  match fuel with
  | O => files
  | S fuel =>
      match nth_error files i with
      | None => files
      | Some f => drop_loop hz fuel (S i) (if has (twin hz f) files then remove_first f files else files)
      end
  end.
(** 276-282 *)
Definition candidates (hz : option string) (files : list string) : list string :=
  match hz with
  | None => files
  | Some hz => drop_loop hz (List.length files) 0 files
  end.
(** 284-290: [draws]: the indices [np.random.choice(…, replace=False)] would return, which
    raises ValueError when asked for more than there are *)
Definition select (hz : option string) (files : list string) (n : nat) (draws : list nat) : res (list string) :=
  let c := candidates hz files in
  if Nat.leb n (List.length c) then mapM (get c) draws else Err ValueError.
(** 293: the option is recognised by its first nine characters *)
Definition load_from (option : string) : bool := String.eqb (substring 0 9 option) "loadfrom ".
