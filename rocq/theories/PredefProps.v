(** C92: predefined layouts. *)
From Verif Require Import Base BaseFacts SigGen SigGenSpec SigGenFacts SigGenProps Prep Predef PredefSpec PredefFacts.
From Coq Require Import QArith.
Open Scope nat_scope.

(** Which complete layouts are accepted. *)
Theorem C92_accepted_iff p ly : wp_random p = None -> complete_layout ly ->
  ((exists p' r, predefined p ly = Ok (p', r)) <->
   wide (ly_rd ly) (wp_min_dist p) /\ fits (wp_sro p) (length (ly_m ly)) /\ fits (wp_added p) (length (ly_m ly)) /\ enough_signals p ly).
Proof.
  intros HR HC. pose proof (align_iff p ly) as H. unfold network_of in H. rewrite HR in H. rewrite <- H. split.
  - intros (p' & r & E). unfold predefined in E. destruct (align p ly) as [q|]; [eauto|discriminate].
  - intros (p' & E). exists p'. rewrite (predefined_eq p ly p' E), (concatenate_complete ly HC). cbn [bind]. eexists. reflexivity.
Qed.

(** Sources, nodes and sensors are those of the layout: each node gets the positions that
    are given for it, in order; one clock per node. *)
Theorem C92_as_laid_out p ly p' r : wp_random p = None -> complete_layout ly -> predefined p ly = Ok (p', r) ->
  wp_sensors p' = ly_m ly /\ wp_rd p' = ly_rd ly /\ rm_desired r = ly_targets ly /\ rm_noise r = ly_interferers ly /\
  wp_desired p' = length (rm_desired r) /\ wp_noise p' = length (rm_noise r) /\
  (forall k, k < length (ly_m ly) -> node_sensors p' r k = Ok (laid_out ly k) /\ length (laid_out ly k) = nth k (ly_m ly) 0) /\
  length (wp_sro p') = length (ly_m ly) /\ (length (wp_sro p) = length (ly_m ly) -> wp_sro p' = wp_sro p) /\
  forall k, k < length (ly_m ly) -> (nth k (wp_fs_nodes p') 0 == wp_fs p * (1 + nth k (wp_sro p') 0 / 1000000))%Q.
Proof.
  intros HR HC E. assert (E0 := E). unfold predefined in E. destruct (align p ly) as [q|] eqn:EA; [|discriminate]. clear E. rewrite (predefined_eq p ly q EA), (concatenate_complete ly HC) in E0. cbn [bind] in E0.
  assert (Ep : p' = q) by congruence. assert (Er : r = mkRoom (wp_rd p) (ly_sensors ly) (ly_targets ly) (ly_interferers ly)) by congruence. subst p' r. clear E0.
  destruct (align_ok _ _ _ EA) as (A1 & A2 & A3 & A4 & A5 & A6 & A7 & A8 & A9). unfold network_of in *. rewrite HR in *. cbn [rm_desired rm_noise rm_sensors].
  repeat (split; [first [assumption|reflexivity]|]). split.
  { intros k Hk. destruct HC as (H1 & H2 & H3). unfold node_sensors. cbn [rm_sensors]. rewrite A3, C35_total_length, H3, Nat.ltb_irrefl. destruct (C35_selection pos (ly_m ly) k (ly_sensors ly) H3 Hk) as (B1 & B2).
    rewrite B1 in B2 |- *. split; [reflexivity|exact B2]. }
  split; [exact A6|]. split.
  { intros HL. unfold dim_check in A9. rewrite HL, Nat.eqb_refl in A9. congruence. }
  intros k Hk. rewrite A8. set (f := fun s => (wp_fs p * (1 + s * (1 # 1000000)))%Q). rewrite (nth_indep _ 0%Q (f 0%Q)) by (rewrite map_length; lia). rewrite map_nth. unfold f. field.
Qed.

(** The room: the dimensions of the layout are never compared with those of the room. *)
Theorem C92_room_refuted p ly p' r : predefined p ly = Ok (p', r) -> rm_dims r = wp_rd p /\ wp_rd p' = ly_rd ly.
Proof.
  intros E. unfold predefined in E. destruct (align p ly) as [q|] eqn:EA; [|discriminate]. cbn [bind] in E. destruct (existsb _ _); [discriminate|]. destruct (concatenate _) as [c|]; [|discriminate]. cbn [bind] in E.
  assert (Ep : p' = q) by congruence. assert (Er : r = mkRoom (wp_rd p) c (ly_targets ly) (ly_interferers ly)) by congruence. subst p' r. split; [reflexivity|]. apply (align_ok _ _ _ EA).
Qed.
Theorem C92_dimensions_never_rejected_refuted p ly d : (exists p' r, predefined p ly = Ok (p', r)) ->
  exists p' r, predefined (mkWP d (wp_sensors p) (wp_desired p) (wp_noise p) (wp_min_dist p) (wp_sro p) (wp_added p) (wp_fs p) (wp_fs_nodes p) (wp_map p) (wp_desired_files p) (wp_noise_files p) (wp_random p)) ly = Ok (p', r) /\ rm_dims r = d.
Proof.
  intros (p' & r & E). unfold predefined in *. cbn [wp_rd]. unfold align in *. cbn [wp_min_dist wp_sro wp_added wp_fs wp_fs_nodes wp_map wp_desired_files wp_noise_files wp_random] in *.
  destruct (bind (reinit _) _) as [q|]; [|discriminate]. cbn [bind] in *. destruct (existsb _ _); [discriminate|]. destruct (concatenate _) as [c|]; [|discriminate]. cbn [bind] in *. eexists _, _. split; reflexivity.
Qed.

(** Too few positions: not an error as long as every node has one; the last nodes have fewer
    sensors than announced. *)
Theorem C92_missing_positions_refuted : exists p ly p' r, predefined p ly = Ok (p', r) /\ wp_random p = None /\ wp_sensors p' = [2; 2] /\ length (rm_sensors r) = 3 /\
  node_sensors p' r 1 = Ok [(2, 1, 1)%Q].
Proof.
  exists (mkWP [4; 4; 4]%Q [1] 1 0 (1 # 2) [0%Q] [] 16000 [] [] 1 (Given 0) None), (mkLay [4; 4; 4]%Q [2; 2] [(1, 1, 1); (1, 2, 1); (2, 1, 1)]%Q [(3, 3, 1)%Q] []).
  eexists _, _. split; [vm_compute; reflexivity|]. repeat split.
Qed.
(** A random network asked for: the sensors of the layout are shared out among the nodes of
    that network. *)
Theorem C92_random_network_refuted : exists p ly p' r, complete_layout ly /\ predefined p ly = Ok (p', r) /\ wp_sensors p' <> ly_m ly /\
  node_sensors p' r 0 = Ok [(1, 1, 1)%Q] /\ laid_out ly 0 = [(1, 1, 1); (1, 2, 1)]%Q.
Proof.
  exists (mkWP [4; 4; 4]%Q [1; 2] 1 0 (1 # 2) [0; 0]%Q [0; 0]%Q 16000 [] [] 1 (Given 0) (Some [1; 2])), (mkLay [4; 4; 4]%Q [2; 1] [(1, 1, 1); (1, 2, 1); (2, 1, 1)]%Q [(3, 3, 1)%Q] []).
  eexists _, _. split; [repeat split; [discriminate|repeat constructor]|]. split; [vm_compute; reflexivity|]. repeat split. discriminate.
Qed.

(** * Examples *)
Definition ex_layout : layout := mkLay [4; 4; 4]%Q [2; 1] [(1, 1, 1); (1, 2, 1); (2, 1, 1)]%Q [(3, 3, 1)%Q] [(1, 3, 2)%Q].
Definition ex_wp (rd : list Q) (sro : list Q) : wparams := mkWP rd [1; 1; 1] 1 0 (1 # 2) sro [0%Q; 0%Q; 0%Q] 16000 [] [] 1 (FromFolder 5) None.
Example C92_ex_complete : complete_layout ex_layout.
Proof. repeat split; [discriminate|repeat constructor]. Qed.
Example C92_ex : exists p' r, predefined (ex_wp [4; 4; 4]%Q [10; 20]%Q) ex_layout = Ok (p', r) /\ node_sensors p' r 1 = Ok [(2, 1, 1)%Q] /\ wp_sro p' = [10; 20]%Q.
Proof. eexists _, _. split; [vm_compute; reflexivity|]. split; reflexivity. Qed.
(** Three different offsets do not fit two nodes. *)
Example C92_ex_rejected : predefined (ex_wp [4; 4; 4]%Q [0; 10; 20]%Q) ex_layout = Err ValueError.
Proof. reflexivity. Qed.
(** A source of the layout outside the room that is simulated *)
Example C92_ex_outside : exists p' r, predefined (ex_wp [2; 2; 2]%Q [0%Q]) ex_layout = Ok (p', r) /\ rm_dims r = [2; 2; 2]%Q /\ rm_desired r = [(3, 3, 1)%Q].
Proof. eexists _, _. split; [vm_compute; reflexivity|]. split; reflexivity. Qed.

Print Assumptions C92_accepted_iff.
Print Assumptions C92_as_laid_out.
Print Assumptions C92_room_refuted.
Print Assumptions C92_dimensions_never_rejected_refuted.
Print Assumptions C92_missing_positions_refuted.
Print Assumptions C92_random_network_refuted.
