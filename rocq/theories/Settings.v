(** Model of the consistency checks of [TestParameters.__post_init__]:
    danse_toolbox/d_classes.py 214-287 (with [load], 296-300, which runs them again).

    The checks of [danseParams.__post_init__] are those of Params.v; those of
    [wasnParams.__post_init__] and the random seeds are left out.  What the user types at the
    prompts is a list of lines; running out of lines means that the program still waits
    ([OutOfFuel]).  [float_of] is the conversion of a string to a number, [None] if it
    fails; numbers are exact. *)
From Coq Require Import String Ascii QArith.
From Verif Require Import Base Params.
Local Open Scope string_scope.

(** [sub in s] *)
Definition contains (sub s : string) : bool := match String.index 0 sub s with Some _ => true | None => false end.

(** The fields of [exportParams] that are read or written *)
Record exports := mkX {
  x_condition : bool; x_filters : bool; x_norms : bool; x_scene : bool; x_waveforms : bool; x_metrics : bool; x_wav : bool }.
Record settings := mkS {
  s_danse : params; s_updating : string; s_comp : bool; s_ssbc : bool; s_save_cond : bool; s_start : string;
  s_topology : string; s_sros : list Q; s_dur : Q; s_signal : string; s_room : bool;
  s_exports : exports }.

(** 234-237, 246-249: the prompt, repeated until the answer is 'y' or 'n' *)
Fixpoint ask (answers : list string) : res (bool * list string) :=
  match answers with
  | [] => Err OutOfFuel
  | a :: rest => if String.eqb a "y" then Ok (true, rest) else if String.eqb a "n" then Ok (false, rest) else ask rest
  end.

(** [any(SROperNode != 0)] *)
Definition any_sro (l : list Q) : bool := existsb (fun x => negb (Qeq_bool x 0)) l.
(** 302-303 *)
Definition fully_connected (s : settings) : bool := String.eqb (s_topology s) "fully-connected".

Definition with_type (p : params) (t : string) : params :=
  mkP (dft_size p) (ovlp p) (win_ana p) (win_syn p) (btype p) (blen p) (estimate_sros p) (no_relax p) (t_ext p) t (comp_strategy p).
Definition with_strategy (p : params) (c : string) : params :=
  mkP (dft_size p) (ovlp p) (win_ana p) (win_syn p) (btype p) (blen p) (estimate_sros p) (no_relax p) (t_ext p) (sim_type p) c.

(** 278-287; [var[6:-2]], [var[6:-1]] *)
Definition check_start (float_of : string -> option Q) (var : string) (dur : Q) : res unit :=
  if contains "after" var && negb (contains "beginning" var) then
    do d <- (if contains "ms" var then
               match float_of (substring 6 (String.length var - 8) var) with Some x => Ok (x / 1000)%Q | None => Err ValueError end
             else if contains "s" var then
               match float_of (substring 6 (String.length var - 7) var) with Some x => Ok x | None => Err ValueError end
             else Err UnboundLocalError);
    if Qle_bool d dur then Ok tt else Err ValueError
  else Ok tt.

(** 251-262 *)
Definition adjust_exports (type signal : string) (room : bool) (x : exports) : exports :=
  let batch := String.eqb type "batch" in
  let online := contains "online" type in
  let file := String.eqb signal "from_file" in
  mkX (x_condition x)
      (if batch then false else x_filters x)
      (if batch then false else if online then true else x_norms x)
      (if room then x_scene x else false)
      (if file then x_waveforms x else false)
      (if file then x_metrics x else false)
      (if file then x_wav x else false).

(** 214-287 *)
Definition check_settings (float_of : string -> option Q) (answers : list string) (s : settings) : res (settings * list string) :=
  do p <- post_init (s_danse s); (* 216 *)
  if String.eqb (s_updating s) "sim" && any_sro (s_sros s) then Err ValueError else (* 223-225 *)
  let save_cond := x_condition (s_exports s) in (* 226-230 *)
  do pa <- (if String.eqb (sim_type p) "batch_wola_estimation" && any_sro (s_sros s) then (* 232-241 *)
              do ya <- ask answers;
              if fst ya then Ok (with_type p "online", snd ya) else Err ValueError
            else Ok (p, answers));
  let '(p, answers) := pa in
  do pa <- (if fully_connected s && s_comp s && String.eqb (comp_strategy p) "network-wide" then (* 244-253 *)
              do ya <- ask answers;
              if fst ya then Ok (with_strategy p "node-specific", snd ya) else Err ValueError
            else Ok (p, answers));
  let '(p, answers) := pa in
  let x := adjust_exports (sim_type p) (s_signal s) (s_room s) (s_exports s) in
  let updating := if fully_connected s then s_updating s (* 267-277 *)
                  else if contains "topo-indep" (s_updating s) then s_updating s else "topo-indep_" ++ s_updating s in
  let ssbc := if fully_connected s then s_ssbc s else false in
  do _ <- check_start float_of (s_start s) (s_dur s);
  Ok (mkS p updating (s_comp s) ssbc save_cond (s_start s) (s_topology s) (s_sros s) (s_dur s) (s_signal s) (s_room s) x, answers).
