(** Model of the evaluation of the estimates of sampling-rate offsets:
    dxcpphat/demo_utils.py 88-144 ([evaluate_simulation_results]): error over time, residual
    time offset, settling time, and whether a signal-to-synchronisation-noise ratio is
    computed.  One asynchronous node; real numbers instead of floats, in particular
    [int(Tc * fs)] is exact. *)
From Verif Require Import Base ChunkSpec.
From Coq Require Import Reals.
Local Open Scope R_scope.

Section Eval.
  (** number of frames ([n_frames]), estimates and true offset (ppm) *)
  Variables (n : nat) (est : nat -> R) (true_offset : R).
  (** 111-120 *)
  Fixpoint mse (k : nat) : R :=
    match k with
    | O => (est O - true_offset) ^ 2
    | S j => 9 / 10 * mse j + 1 / 10 * (est k - true_offset) ^ 2
    end.
  Definition rmse (k : nat) : R := sqrt (mse k).

  (** 131, 134: [argwhere(rmse_t > 1)[-1][0]] *)
  Fixpoint last_above (m : nat) : option nat :=
    match m with
    | O => None
    | S j => if Rlt_dec 1 (rmse j) then Some j else last_above j
    end.
  (** 128-134: the settling time, [-1] if the error never exceeds 1 ppm *)
  Definition settling_time (fs : R) : R :=
    match last_above n with None => -1 | Some j => INR j * 2048 / fs end.

  (** 125: [limit] is [int(floor(ssnr_t_max * fs / frame_len))] *)
  Definition last_frame (limit : Z) : Z := if Z.ltb (Z.of_nat n) limit then Z.of_nat n - 1 else limit - 1.
  (** 123-126, for a positive [limit] *)
  Definition residual_offset (limit : Z) (frame_len : R) : R :=
    let km := Z.to_nat (last_frame limit) in
    sumR km (fun k => est km - est k) / 10 ^ 6 * frame_len.

  (** 140: [total] samples of the signal, [t_max] is [int(ssnr_t_max * fs)] *)
  Definition ssnr_computed (total t_max : Z) : bool :=
    match last_above n with
    | None => false
    | Some j => Z.leb (2 ^ 13) (Z.max 0 (Z.min t_max total - Z.min (Z.of_nat j * 2048) total))
    end.
End Eval.
