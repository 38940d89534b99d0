(** Model of the closed loop of resampler, delay line, estimator and controller:
    dxcpphat/sro_estimation.py 26-72 ([CL_DXCPPhaT.process]) and 87-119
    ([CL_DXCPPhaT_Simple.process]).  The parts are those of Resamp.v, Dxcp.v and Phat.v.
    The two classes differ in the controller only, here given by its state [C], its step
    [ctrl] (ACS value, raw estimate) and its output [out].  That [process] overwrites the
    frame of the caller is not modelled. *)
From Verif Require Import Base Dxcp Resamp Phat.
From Coq Require Import Reals.
Local Open Scope R_scope.

Section Loop.
  Context {C A : Type} (c : config) (frame : nat) (ctrl : C -> A -> R -> C) (out : C -> R).
  (** [_stateupdate] on the two columns of the input buffer; a failure stays *)
  Definition est_update (b : list (R * R)) (s : res state) : res state :=
    do s' <- s; update c (fun n => fst (nth n b (0, 0))) (fun n => snd (nth n b (0, 0))) 0 s'.

  Record loop := mkLoop { l_sync : dbuf (list R) * rsmp; l_est : est (R * R) (res state); l_ctrl : C }.
  (** 26-44, 87-93; 190-206 *)
  Definition loop_new (c0 : C) : loop := mkLoop (sync_new frame) (est_new (size c) (0, 0) (Ok (st0 c))) c0.
  (** what is returned, 72 and 119: raw estimate (the simple controller returns its own
      smoothed version), estimate, shift of the resampler, synchronised frame *)
  Record output := mkOut { o_raw : R; o_est : R; o_shift : R; o_frame : list R }.

  (** 47-72, 95-119 *)
  Definition loop_step (st : loop) (x0 x1 : list R) (acs : A) : res (output * loop) :=
    do p <- sync_step frame (l_sync st) x0 x1 (out (l_ctrl st));
    do e <- process_data est_update frame (shift c) (l_est st) (combine (fst (fst p)) (snd (fst p)));
    do s <- sta e;
    let ct := ctrl (l_ctrl st) acs (sro s) in
    Ok (mkOut (sro s) (out ct) (r_shift (snd (snd p))) (snd (fst p)), mkLoop (snd p) e ct).

  Fixpoint loop_run (st : loop) (inp : list (list R * list R * A)) : res (list output * loop) :=
    match inp with
    | [] => Ok ([], st)
    | (x0, x1, acs) :: inp' =>
        do p <- loop_step st x0 x1 acs;
        do q <- loop_run (snd p) inp';
        Ok (fst p :: fst q, snd q)
    end.
End Loop.
Arguments loop : clear implicits.

(** [CL_DXCPPhaT_Simple] *)
Definition simple_loop (c : config) (frame : nat) (inp : list (list R * list R * R)) : res (list output * loop (R * R)) :=
  loop_run c frame simple_ctrl snd (loop_new c frame (0, 0)) inp.
(** [CL_DXCPPhaT] with start delay [delay]; [k1 k2 c1 c2] as in Dxcp.v *)
Definition imc_loop (c : config) (frame : nat) (k1 k2 c1 c2 : R) (delay : nat) (inp : list (list R * list R * bool)) : res (list output * loop imc) :=
  loop_run c frame (imc_step k1 k2 c1 c2 delay) imc_out (loop_new c frame imc_new) inp.
