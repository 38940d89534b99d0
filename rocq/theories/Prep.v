(** Model of the preparation of a network for a run: per-node parameters
    (/repo/siggen/classes.py 235-345, [WASNparameters.__post_init__]), sensors replaced by
    noise and noise sensors added (/repo/siggen/utils.py 1361-1411, end of [build_wasn]),
    and /repo/danse_toolbox/d_core.py 466-547 ([prep_for_danse]) without the activity per
    frame (see SigGen.v and Scene.v).

    Simplifications: samples are reals, drawn signals are arguments; signals of one sensor
    have one fixed length, so that only channels are counted; sensor indices are
    non-negative. *)
From Verif Require Import Base SigGen.
From Coq Require Import QArith Reals.
Local Open Scope R_scope.

(** classes.py 241-260 [_dim_check]; scalars are lists of one value *)
Definition dim_check (var : list Q) (n : nat) : res (list Q) :=
  if Nat.eqb (length var) n then Ok var else
  match var with
  | [] => Ok (repeat 0%Q n)
  | v :: _ => if forallb (fun w => Qeq_bool w v) var then Ok (repeat v n) else Err ValueError
  end.
(** 235-237, 311-334: distances to walls, one SRO per node, sampling frequencies, number
    of nodes (the numbers of added sensors are checked in the same way as the SROs) *)
Definition post_init (min_dist : Q) (rd : list Q) (n_nodes : nat) (sensors : list nat) (sro : list Q) (fs : Q) : res (list Q * list Q * list nat) :=
  match rd with
  | [] => Err ValueError
  | x :: rd' =>
      let smallest := fold_right (fun a b => if Qle_bool a b then a else b) x rd' in
      if Qle_bool (smallest / 3) min_dist then Err ValueError else
      do sro' <- dim_check sro n_nodes;
      let fss := map (fun s => fs * (1 + s * (1 # 1000000)))%Q sro' in
      if Nat.eqb n_nodes (length sensors) then Ok (sro', fss, sensor_map sensors) else Err ValueError
  end.

(** one node: signals with and without sampling rate offset, channel by channel *)
Definition chans := list (list R).
Record node := mkNode {
  nd_sensors : nat; nd_ref : nat;
  nd_data : chans; nd_speech : chans; nd_noise : chans;
  nd_data0 : chans; nd_speech0 : chans; nd_noise0 : chans;   (* *_noSRO *)
  nd_speech_ref : list R; nd_noise_ref : list R }.

(** 1371-1387 at one node, for its sensor [j]; [x], [s], [n]: the signals drawn *)
Definition replace_sensor (nd : node) (j : nat) (x s n : list R) : res node :=
  if Nat.ltb j (length (nd_data nd)) then
    let sp := upd j s (nd_speech nd) in
    let no := upd j n (nd_noise nd) in
    do sr <- get sp (nd_ref nd);
    do nr <- get no (nd_ref nd);
    Ok (mkNode (nd_sensors nd) (nd_ref nd) (upd j x (nd_data nd)) sp no (nd_data0 nd) (nd_speech0 nd) (nd_noise0 nd) sr nr)
  else Err IndexError.
(** 1366-1370: node and local index of sensor [m] *)
Definition local_index (s2n : list nat) (m : nat) : res (nat * nat) :=
  do k <- get s2n m;
  do j <- first_where (Nat.eqb m) (sensors_of k s2n (seq 0 (length s2n)));
  Ok (k, j).
Definition replace_one (s2n : list nat) (wasn : list node) (md : nat * (list R * list R * list R)) : res (list node) :=
  let '(m, (x, s, n)) := md in
  do kj <- local_index s2n m;
  do nd <- get wasn (fst kj);
  do nd' <- replace_sensor nd (snd kj) x s n;
  Ok (upd (fst kj) nd' wasn).
(** 1361-1387: nothing happens unless [any(setThoseSensorsToNoise)] *)
Definition set_to_noise (s2n : list nat) (l : list (nat * (list R * list R * list R))) (wasn : list node) : res (list node) :=
  if existsb (fun md => negb (Nat.eqb (fst md) 0)) l then
    fold_left (fun w md => do w <- w; replace_one s2n w md) l (Ok wasn)
  else Ok wasn.

(** 1390-1409: [sigs] are the signals drawn for the node's added sensors *)
Definition add_sensors (nd : node) (sigs : chans) : node :=
  mkNode (nd_sensors nd + length sigs) (nd_ref nd) (nd_data nd ++ sigs) (nd_speech nd ++ sigs) (nd_noise nd ++ sigs)
    (nd_data0 nd) (nd_speech0 nd) (nd_noise0 nd) (nd_speech_ref nd) (nd_noise_ref nd).
Fixpoint add_all (sigs : list chans) (wasn : list node) : res (list node) :=
  match sigs, wasn with
  | [], _ => Ok wasn
  | _ :: _, [] => Err IndexError
  | s :: sigs', nd :: wasn' => do r <- add_all sigs' wasn'; Ok (add_sensors nd s :: r)
  end.

(** d_core.py 522-536: numbers of sensors and sensor map that the algorithm goes by *)
Fixpoint add_counts (ms added : list nat) : res (list nat) :=
  match added, ms with
  | [], _ => Ok ms
  | _ :: _, [] => Err IndexError
  | n :: added', m :: ms' => do r <- add_counts ms' added'; Ok ((m + n)%nat :: r)
  end.
Definition prep_counts (ms added s2n : list nat) : res (list nat * list nat) :=
  if existsb (fun n => Nat.ltb 0 n) added then
    do ms' <- add_counts ms added; Ok (ms', sensor_map ms')
  else Ok (ms, s2n).

(** d_core.py 485-517: forgetting factor of a node *)
Definition beta_from_t50p (t50p fs ns : R) : R := exp (ln (1 / 2) / (t50p * fs / ns)).
Definition node_beta (forced : option R) (t50p fs ns : R) : R :=
  match forced with Some b => b | None => beta_from_t50p t50p fs ns end.
