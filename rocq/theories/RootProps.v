(** C78: the root of a tree. *)
From Verif Require Import Base BaseFacts Eval EvalSpec EvalFacts Root RootSpec RootFacts.
From Coq Require Import Reals Lra.
Local Open Scope R_scope.

(** The root is a node of the network: the one asked for, or one with the largest measure. *)
Theorem C78_root_exists m nodes r : set_tree_root false m nodes = Ok (Some r) ->
  (r < length nodes)%nat /\ (forall u, m = UserDefined u -> u = Some r).
Proof. exact (root_exists m nodes r). Qed.

(** The node chosen "by SNR" has the largest ratio of the power of the whole signal to the
    power of its active part. *)
Theorem C78_largest_measure nodes r : set_tree_root false Snr nodes = Ok (Some r) ->
  exists snrs, mapM (fun nd => root_snr (fst nd) (snd nd)) nodes = Ok snrs /\
    forall k x, nth_error snrs k = Some (Fin x) -> (forall i, nth_error snrs i <> Some NaN) ->
      match nth_error snrs r with Some (Fin y) => x <= y | Some PInf => True | _ => False end.
Proof. exact (largest_measure nodes r). Qed.

(** As the code stands, that is the node with the worst signal-to-noise ratio: with a common
    VAD and signals that are not zero in their active part, no node has a smaller ratio of
    active to inactive energy than the root (cross-multiplied: the inactive energy may be
    zero). *)
Theorem C78_worst_snr_refuted nodes vad r k dr dk : set_tree_root false Snr nodes = Ok (Some r) ->
  (forall d v, In (d, v) nodes -> v = vad /\ length d = length vad /\ 0 < energy (part true d vad)) ->
  nth_error nodes r = Some (dr, vad) -> nth_error nodes k = Some (dk, vad) ->
  energy (part true dr vad) * energy (part false dk vad) <= energy (part true dk vad) * energy (part false dr vad).
Proof. exact (worst_snr nodes vad r k dr dk). Qed.

(** ** Two nodes, speech at samples 0 and 1: the noisier one becomes the root *)
Definition c78_vad : list bool := [true; true; false; false].
Definition c78_nodes : list (list R * list bool) := [([1; 1; 0; 1], c78_vad); ([1; 1; 1; 1], c78_vad)].
Example C78_ex_worst : set_tree_root false Snr c78_nodes = Ok (Some 1%nat).
Proof.
  unfold set_tree_root, c78_nodes. cbn [mapM fst snd]. unfold root_snr at 1 2. cbn [masked length Nat.eqb combine filter snd map fst bind c78_vad].
  assert (E : forall e a, e <> 0 -> a <> 0 -> db (Fin e) (Fin a) = Fin (10 * log10 (e / a))) by (intros e a He Ha; unfold db; destruct (Req_EM_T a 0); [contradiction|]; destruct (Req_EM_T e 0); [contradiction|reflexivity]).
  unfold mean, squares. cbn [map length rsum fold_right]. cbn [INR]. rewrite !E by lra. cbn [bind argmax argmax_from above]. destruct (Rlt_dec _ _) as [|H]; [reflexivity|exfalso; apply H].
  apply Rmult_lt_compat_l; [lra|]. unfold log10, Rdiv. apply Rmult_lt_compat_r; [apply Rinv_0_lt_compat, ln10|]. apply ln_increasing; lra.
Qed.
Example C78_ex_ratio : energy (part true [1; 1; 1; 1] c78_vad) * energy (part false [1; 1; 0; 1] c78_vad) < energy (part true [1; 1; 0; 1] c78_vad) * energy (part false [1; 1; 1; 1] c78_vad).
Proof. unfold energy, part, squares, rsum. cbn. lra. Qed.
Example C78_ex_user : set_tree_root false (UserDefined (Some 1%nat)) c78_nodes = Ok (Some 1%nat).
Proof. reflexivity. Qed.

Print Assumptions C78_root_exists.
Print Assumptions C78_largest_measure.
Print Assumptions C78_worst_snr_refuted.
