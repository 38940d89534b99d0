(** Model of the validation in [DANSEparameters.__post_init__]
    (danse_toolbox/d_base.py 332-380). *)
From Verif Require Import Base.
From Coq Require Import QArith String Ascii.
Open Scope string_scope.
Open Scope Z_scope.

(** The fields read or written by [__post_init__]; numbers are exact (the code
    uses floating point for the overlap), window samples are not represented. *)
Record params := mkP {
  dft_size : Z; ovlp : Q; win_ana : string; win_syn : string;
  btype : string; blen : option Z; estimate_sros : string;
  no_relax : bool; t_ext : Q; sim_type : string; comp_strategy : string }.

(** [int(x)]: truncation towards zero *)
Definition trunc (q : Q) : Z := Z.quot (Qnum q) (Zpos (Qden q)).
(** 338: hop [Ns] *)
Definition hop (p : params) : Z := trunc (inject_Z (dft_size p) * (1 - ovlp p))%Q.

(** 340-355: creating one window; [np.ones] rejects negative sizes, [np.hanning]
    returns an empty array for them. *)
Definition mk_window (n : Z) (ty : string) : res unit :=
  if String.eqb ty "sqrthann" then Ok tt
  else if String.eqb ty "rect" then (if n <? 0 then Err ValueError else Ok tt)
  else if String.eqb ty "rect_normNs" then (if n <? 0 then Err ValueError else Ok tt)
  else Err ValueError.

(** 358-370 *)
Definition bc_length (ty : string) (l : option Z) (ns : Z) : res (option Z) :=
  if String.eqb ty "wholeChunk" then Ok (Some ns)
  else if String.eqb ty "fewSamples" then
    match l with
    | None => Ok (Some 1)
    | Some l =>
        if l >? ns then Err ValueError
        else if l =? 0 then Err ZeroDivisionError
        else if negb (ns mod l =? 0) then Err ValueError
        else Ok (Some l)
    end
  else Ok l.

Definition one_of (s : string) (l : list string) : bool := existsb (String.eqb s) l.

(** [str.lower] on ASCII *)
Definition lower_ascii (a : ascii) : ascii :=
  let n := N_of_ascii a in if ((65 <=? n) && (n <=? 90))%N then ascii_of_N (n + 32) else a.
Fixpoint lower (s : string) : string :=
  match s with EmptyString => EmptyString | String a s' => String (lower_ascii a) (lower s') end.

Definition post_init (p : params) : res params :=
  do _ <- mk_window (dft_size p) (win_ana p);
  do _ <- mk_window (dft_size p) (win_syn p);
  (* 357: [Ns / sum(window)]: the sum over an empty window is the integer 0 *)
  do _ <- (if dft_size p <=? 0 then Err ZeroDivisionError else Ok tt);
  do l <- bc_length (btype p) (blen p) (hop p);
  if negb (one_of (estimate_sros p) ["Oracle"; "CohDrift"; "DXCPPhaT"]) then Err ValueError else
  if negb (one_of (sim_type p) ["batch"; "online"]) then Err ValueError else
  if negb (one_of (lower (comp_strategy p)) ["network-wide"; "node-specific"]) then Err ValueError else
  Ok (mkP (dft_size p) (ovlp p) (win_ana p) (win_syn p) (btype p) l (estimate_sros p)
          (no_relax p) (if no_relax p then 0%Q else t_ext p) (sim_type p) (lower (comp_strategy p))).
