(** Specification vocabulary for the preparation of a network. *)
From Verif Require Import Base SigGen SigGenSpec Prep.
From Coq Require Import QArith Reals.
Local Open Scope R_scope.

Definition no_node : node := mkNode 0 0 [] [] [] [] [] [] [] [].
Definition node_at (wasn : list node) (k : nat) : node := nth k wasn no_node.
(** a network whose node [k] has [nth k ms 0] sensors, among them its reference *)
Definition network (ms : list nat) (wasn : list node) : Prop :=
  length wasn = length ms /\ forall k, (k < length ms)%nat ->
    let nd := node_at wasn k in let m := nth k ms 0%nat in
    length (nd_data nd) = m /\ length (nd_speech nd) = m /\ length (nd_noise nd) = m /\ (nd_ref nd < m)%nat.
(** signals of sensor [m] of the network: as recorded, speech only, noise only *)
Definition sensor_signals (ms : list nat) (wasn : list node) (k j : nat) : list R * list R * list R :=
  let nd := node_at wasn k in (nth j (nd_data nd) [], nth j (nd_speech nd) [], nth j (nd_noise nd) []).
(** the reference signals kept by a node are those of its reference sensor *)
Definition ref_signals (nd : node) : Prop :=
  nd_speech_ref nd = nth (nd_ref nd) (nd_speech nd) [] /\ nd_noise_ref nd = nth (nd_ref nd) (nd_noise nd) [].
(** everything else is as before *)
Definition rest_kept (nd nd' : node) : Prop :=
  nd_sensors nd' = nd_sensors nd /\ nd_ref nd' = nd_ref nd /\ nd_data0 nd' = nd_data0 nd /\ nd_speech0 nd' = nd_speech0 nd /\ nd_noise0 nd' = nd_noise0 nd.
