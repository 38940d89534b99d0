(** Model of the SNR estimates from the microphone signals alone:
    danse_toolbox/d_eval.py 540-570 [getSNR] and 627-656 [get_snr_old] (from a VAD);
    dxcpphat/demo_utils.py 52-86 [compute_node_snr] (from a known noise floor; without the
    queue that carries the results).  The VAD is a list of booleans.  Real numbers. *)
From Verif Require Import Base Eval.
From Coq Require Import Reals.
Local Open Scope R_scope.

(** d_eval.py 558-559: [timeDomainSignal[VAD == b]] *)
Definition pick (b : bool) (x : list R) (vad : list bool) : list R := map fst (filter (fun p => Bool.eqb (snd p) b) (combine x vad)).
(** 561-564; [speech] and [noise] are powers *)
Definition ratio (speech noise : R) : xreal :=
  if Rlt_dec speech 0 then MInf
  else if Req_EM_T noise 0 then if Req_EM_T speech 0 then NaN else PInf
  else if Req_EM_T speech 0 then MInf else Fin (20 * log10 (speech / noise)).
(** 540-570 *)
Definition getSNR (x : list R) (vad : list bool) : res xreal :=
  let v := firstn (length x) vad in
  let ls := length (filter (fun b => b) v) in
  let ln := (length v - ls)%nat in
  if Nat.ltb 0 ls && Nat.ltb 0 ln then
    if negb (Nat.eqb (length v) (length x)) then Err IndexError
    else match mean (squares (pick false x v)), mean (squares (pick true x v)) with
         | Fin n, Fin s => Ok (ratio (s - n) n)
         | _, _ => Ok NaN
         end
  else if Nat.eqb ls 0 then Ok MInf else Ok PInf.
(** 645-656 for [n] samples of each of the channels [y]: transposed if there are more
    channels than samples *)
Definition get_snr_old (n : nat) (y : list (list R)) (vad : list bool) : res (list xreal) :=
  let y := if Nat.ltb n (length y) then map (fun t => map (fun ch => nth t ch 0) y) (seq 0 n) else y in
  mapM (fun ch => getSNR ch vad) y.

(** demo_utils.py 52-86; [nv] is [n_var] (7.07e-4 squared), [alpha] 0.999, [M]
    [smooth_window_smp] (160000) *)
Section Node.
  Variables (nv alpha : R) (M : nat).
  (** 69-71 *)
  Definition at_least (v : R) : R := if Rlt_dec v nv then nv else v.
  Fixpoint track (prev : R) (xs : list R) : list R :=
    match xs with
    | [] => []
    | x :: xs' => let v := at_least (alpha * prev + (1 - alpha) * (x * x)) in v :: track v xs'
    end.
  (** 67-71; the conditional expression covers the whole sum: zero for the first sample *)
  Definition sig_var (xs : list R) : list R :=
    match xs with [] => [] | _ :: xs' => let v := at_least 0 in v :: track v xs' end.
  (** 73: [convolve(v, ones(M), mode='same') / M]: the entries [c - M + 1 .. c] with
      [c = i + (M - 1) // 2], those outside the signal being zero *)
  Definition smooth (v : list R) (i : nat) : R :=
    rsum (map (fun k => if Nat.leb k (i + (M - 1) / 2) && Nat.ltb (i + (M - 1) / 2) (k + M) then nth k v 0 else 0) (seq 0 (length v))) / INR M.
  (** 74, 76-77 *)
  Definition snr_at (v : R) : xreal :=
    let s := v - nv in if Req_EM_T s 0 then MInf else if Rlt_dec s 0 then NaN else Fin (10 * log10 (s / nv)).
  Definition node_snr (xs : list R) : list xreal := map snr_at (sig_var xs).
  (** 75, 78-79 *)
  Definition snr_at_smoothed (v : R) : xreal :=
    let s := v - nv in if Rle_dec s 0 then MInf else Fin (10 * log10 (s / nv)).
  Definition node_snr_smoothed (xs : list R) : list xreal :=
    let v := sig_var xs in map (fun i => snr_at_smoothed (smooth v i)) (seq 0 (length v)).
End Node.
