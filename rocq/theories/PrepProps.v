(** Theorems about the preparation of a network for a run (C83). *)
From Verif Require Import Base BaseFacts SigGen SigGenSpec SigGenFacts Prep PrepSpec PrepFacts.
From Coq Require Import QArith Reals Lra Qround.
Local Open Scope R_scope.

(** ** Per-node values *)
(** One value per node is taken as it is; no value means zero everywhere; a single value,
    or equal values in any number, is used for all nodes; anything else is refused. *)
Theorem C83_per_node_values var n : 
  (length var = n -> dim_check var n = Ok var) /\
  (var = [] -> dim_check var n = Ok (repeat 0%Q n)) /\
  (forall v l, var = v :: l -> length var <> n -> (forall w, In w l -> w == v)%Q -> dim_check var n = Ok (repeat v n)) /\
  (forall v l, var = v :: l -> length var <> n -> (exists w, In w l /\ ~ w == v)%Q -> dim_check var n = Err ValueError).
Proof.
  unfold dim_check. repeat split.
  - intros ->. rewrite Nat.eqb_refl. reflexivity.
  - intros ->. destruct n; reflexivity.
  - intros v l -> Hn H. destruct (Nat.eqb_spec (length (v :: l)) n); [congruence|]. 
    assert (F : forallb (fun w => Qeq_bool w v) (v :: l) = true). { apply forallb_forall. intros w [<-|I]; apply Qeq_bool_iff; [reflexivity|apply H, I]. } rewrite F. reflexivity.
  - intros v l -> Hn (w & I & H). destruct (Nat.eqb_spec (length (v :: l)) n); [congruence|]. destruct (forallb _ _) eqn:F; [|reflexivity]. exfalso.
    rewrite forallb_forall in F. apply H, Qeq_bool_iff, F. right. exact I.
Qed.
(** An accepted description has one offset, one sampling frequency and one number of
    sensors per node, and room for the distance to the walls. *)
Theorem C83_accepted min_dist rd nodes sensors sro fs sro' fss s2n : post_init min_dist rd nodes sensors sro fs = Ok (sro', fss, s2n) ->
  length sensors = nodes /\ length sro' = nodes /\ length fss = nodes /\ s2n = sensor_map sensors /\
  (forall k, (k < nodes)%nat -> nth k fss 0 == fs * (1 + nth k sro' 0 / 1000000))%Q /\
  (exists d, In d rd /\ min_dist < d / 3)%Q.
Proof.
  unfold post_init. destruct rd as [|x rd]; [discriminate|]. set (sm := fold_right _ x rd). destruct (Qle_bool (sm / 3) min_dist) eqn:Ed; [discriminate|].
  destruct (dim_check sro nodes) as [s|] eqn:Es; [|discriminate]. cbn [bind]. destruct (Nat.eqb_spec nodes (length sensors)) as [En|]; [|discriminate]. intros H. injection H as <- <- <-.
  assert (L : length s = nodes).
  { unfold dim_check in Es. destruct (Nat.eqb_spec (length sro) nodes) as [El|El]; [injection Es as <-; exact El|]. destruct sro as [|v l]; [injection Es as <-; apply repeat_length|]. destruct (forallb _ _); [injection Es as <-; apply repeat_length|discriminate]. }
  repeat split; try congruence; [rewrite map_length; exact L| |].
  - intros k Hk. rewrite nth_indep with (d' := (fun s => fs * (1 + s * (1 # 1000000)))%Q 0%Q) by (rewrite map_length; lia). rewrite (map_nth (fun s => fs * (1 + s * (1 # 1000000)))%Q). field.
  - exists sm. split.
    + unfold sm. clear. induction rd as [|a rd IH]; [left; reflexivity|]. cbn [fold_right]. destruct (Qle_bool a _); [right; left; reflexivity|]. destruct IH as [IH|IH]; [left; exact IH|right; right; exact IH].
    + apply Qnot_le_lt. intros C. apply Qle_bool_iff in C. congruence.
Qed.
(** Every dimension of the room is more than three times the distance to the walls. *)
Theorem C83_room_size min_dist rd nodes sensors sro fs r d : post_init min_dist rd nodes sensors sro fs = Ok r -> In d rd -> (min_dist < d / 3)%Q.
Proof.
  unfold post_init. destruct rd as [|x rd]; [discriminate|]. set (sm := fold_right _ x rd). destruct (Qle_bool (sm / 3) min_dist) eqn:Ed; [discriminate|]. intros _ I.
  assert (M : (sm <= d)%Q).
  { unfold sm. clear Ed sm. induction rd as [|a rd IH]; [destruct I as [<-|[]]; apply Qle_refl|]. cbn [fold_right]. set (m := fold_right _ x rd) in *.
    destruct (Qle_bool a m) eqn:E.
    - apply Qle_bool_iff in E. destruct I as [->|[->|I]]; [eapply Qle_trans; [exact E|apply IH; left; reflexivity]|apply Qle_refl|eapply Qle_trans; [exact E|apply IH; right; exact I]].
    - assert (m < a)%Q by (apply Qnot_le_lt; intros C; apply Qle_bool_iff in C; congruence).
      destruct I as [->|[->|I]]; [apply IH; left; reflexivity|apply Qlt_le_weak; assumption|apply IH; right; exact I]. }
  assert (L : (min_dist < sm / 3)%Q) by (apply Qnot_le_lt; intros C; apply Qle_bool_iff in C; congruence).
  eapply Qlt_le_trans; [exact L|]. unfold Qdiv. apply Qmult_le_compat_r; [exact M|discriminate].
Qed.

(** ** Forgetting factor *)
(** A factor between zero and one, with which the weight of the past falls to a half
    after exactly the number of frames that last [t50p] seconds. *)
Theorem C83_forgetting_factor t50p fs ns : 0 < t50p -> 0 < fs -> 0 < ns ->
  let b := node_beta None t50p fs ns in
  0 < b < 1 /\ forall m : nat, (b ^ m <= 1 / 2 <-> t50p <= INR m * ns / fs).
Proof.
  intros Ht Hf Hn b. set (T := t50p * fs / ns). assert (HT : 0 < T) by (apply Rdiv_lt_0_compat; [apply Rmult_lt_0_compat|]; assumption).
  assert (L2 : ln (1 / 2) < 0) by (rewrite <- ln_1; apply ln_increasing; lra).
  assert (E : b = exp (ln (1 / 2) / T)) by reflexivity.
  assert (P : forall m, b ^ m = exp (INR m * (ln (1 / 2) / T))).
  { intros m. rewrite E. induction m as [|m IH]; [cbn; rewrite Rmult_0_l, exp_0; reflexivity|]. rewrite S_INR. cbn [pow]. rewrite IH, <- exp_plus. f_equal. ring. }
  split.
  - split; [rewrite E; apply exp_pos|]. rewrite E. apply Rlt_le_trans with (exp 0); [|rewrite exp_0; apply Rle_refl]. apply exp_increasing. apply (Rmult_lt_reg_r T); [exact HT|]. replace (ln (1 / 2) / T * T) with (ln (1 / 2)) by (field; lra). lra.
  - intros m. rewrite P.
    assert (Q : INR m * (ln (1 / 2) / T) = INR m / T * ln (1 / 2)) by (unfold Rdiv; ring). rewrite Q.
    assert (R : t50p <= INR m * ns / fs <-> 1 <= INR m / T).
    { unfold T. replace (INR m / (t50p * fs / ns)) with ((INR m * ns / fs) / t50p) by (field; lra). split; intros H.
      - apply (Rmult_le_reg_r t50p); [exact Ht|]. replace (INR m * ns / fs / t50p * t50p) with (INR m * ns / fs) by (field; lra). lra.
      - apply (Rmult_le_compat_r t50p) in H; [|lra]. replace (INR m * ns / fs / t50p * t50p) with (INR m * ns / fs) in H by (field; lra). lra. }
    rewrite R. split; intros H.
    + apply Rnot_lt_le. intros C. assert (ln (1 / 2) < INR m / T * ln (1 / 2)) by nra. apply exp_increasing in H0. rewrite exp_ln in H0 by lra. lra.
    + assert (INR m / T * ln (1 / 2) <= ln (1 / 2)) by nra. destruct H0 as [H0|H0]; [apply exp_increasing in H0; rewrite exp_ln in H0 by lra; lra|rewrite H0, exp_ln by lra; lra].
Qed.
(** A value imposed by the user is used as it is. *)
Theorem C83_forced_factor b t50p fs ns : node_beta (Some b) t50p fs ns = b.
Proof. reflexivity. Qed.

(** ** Sensors replaced by noise *)
(** If a sensor other than the first of the network is named: the named sensors get the
    drawn signals, all others keep theirs, and the reference signals of every node are
    those of its reference sensor. *)
Theorem C83_replaced ms l wasn : network ms wasn -> (forall md, In md l -> (fst md < list_sum ms)%nat) -> (exists md, In md l /\ fst md <> 0%nat) ->
  exists wasn', set_to_noise (sensor_map ms) l wasn = Ok wasn' /\ network ms wasn' /\
  (forall k, rest_kept (node_at wasn k) (node_at wasn' k)) /\
  (forall k, ref_signals (node_at wasn k) -> ref_signals (node_at wasn' k)) /\
  (forall k j, (k < length ms)%nat -> (j < nth k ms 0)%nat ->
    let m := (before ms k + j)%nat in
    (~ In m (map fst l) -> sensor_signals ms wasn' k j = sensor_signals ms wasn k j) /\
    (forall l1 l2 xsn, l = l1 ++ (m, xsn) :: l2 -> ~ In m (map fst l2) -> sensor_signals ms wasn' k j = xsn)).
Proof.
  intros Hn Hl (md & I & Hm). unfold set_to_noise.
  assert (E : existsb (fun md => negb (Nat.eqb (fst md) 0)) l = true) by (apply existsb_exists; exists md; split; [exact I|]; destruct (Nat.eqb_spec (fst md) 0); [congruence|reflexivity]).
  rewrite E. exact (replace_all ms l wasn Hn Hl).
Qed.
(** Naming the first sensor of the network alone has no effect. *)
Theorem C83_first_sensor_refuted s2n xsn wasn : set_to_noise s2n [(0%nat, xsn)] wasn = Ok wasn.
Proof. reflexivity. Qed.

(** ** Added noise sensors *)
Lemma add_all_ok : forall sigs wasn, length sigs = length wasn -> add_all sigs wasn = Ok (map (fun p => add_sensors (fst p) (snd p)) (combine wasn sigs)).
Proof. induction sigs as [|s sigs IH]; intros [|nd wasn] H; try discriminate; [reflexivity|]. cbn [add_all]. rewrite IH by (injection H as H; exact H). reflexivity. Qed.
Lemma add_counts_ok : forall added ms, length added = length ms -> exists ms', add_counts ms added = Ok ms' /\ length ms' = length ms /\ forall k, nth k ms' 0%nat = (nth k ms 0 + nth k added 0)%nat.
Proof.
  induction added as [|n added IH]; intros [|m ms] H; try discriminate; [exists []; split; [reflexivity|]; split; [reflexivity|intros [|k]; reflexivity]|].
  destruct (IH ms) as (ms' & E & L & V); [injection H as H; exact H|]. cbn [add_counts]. rewrite E. cbn [bind]. eexists. split; [reflexivity|]. split; [cbn; lia|]. intros [|k]; [reflexivity|]. cbn [nth]. apply V.
Qed.
(** The network and the parameters agree on the numbers of sensors; the original sensors
    keep their place and their signals. *)
Theorem C83_added ms added sigs wasn : network ms wasn -> length sigs = length ms -> added = map (@length (list R)) sigs ->
  exists wasn' ms', add_all sigs wasn = Ok wasn' /\ prep_counts ms added (sensor_map ms) = Ok (ms', sensor_map ms') /\ network ms' wasn' /\
  length ms' = length ms /\ forall k, (k < length ms)%nat -> nth k ms' 0%nat = (nth k ms 0 + length (nth k sigs []))%nat /\
    nd_sensors (node_at wasn' k) = (nd_sensors (node_at wasn k) + length (nth k sigs []))%nat /\
    (forall j, (j < nth k ms 0)%nat -> sensor_signals ms' wasn' k j = sensor_signals ms wasn k j) /\
    (forall j, (j < length (nth k sigs []))%nat -> let x := nth j (nth k sigs []) [] in sensor_signals ms' wasn' k (nth k ms 0 + j)%nat = (x, x, x)) /\
    (ref_signals (node_at wasn k) -> ref_signals (node_at wasn' k)).
Proof.
  intros [NL N] Ls ->. assert (Lw : length sigs = length wasn) by (rewrite NL; exact Ls); rewrite (add_all_ok sigs wasn Lw). destruct (add_counts_ok (map (@length (list R)) sigs) ms) as (ms' & E & L & V); [rewrite map_length; exact Ls|].
  assert (V' : forall k, (k < length ms)%nat -> nth k ms' 0%nat = (nth k ms 0 + length (nth k sigs []))%nat).
  { intros k Hk. rewrite V. f_equal. rewrite nth_indep with (d' := length (@nil (list R))) by (rewrite map_length; lia). apply (map_nth (@length (list R))). }
  assert (A : forall k, (k < length ms)%nat -> node_at (map (fun p => add_sensors (fst p) (snd p)) (combine wasn sigs)) k = add_sensors (node_at wasn k) (nth k sigs [])).
  { intros k Hk. unfold node_at. rewrite nth_indep with (d' := (fun p => add_sensors (fst p) (snd p)) (no_node, [])) by (rewrite map_length, combine_length; lia).
    rewrite (map_nth (fun p => add_sensors (fst p) (snd p))), combine_nth by congruence. reflexivity. }
  exists (map (fun p => add_sensors (fst p) (snd p)) (combine wasn sigs)), ms'. split; [reflexivity|]. split.
  { unfold prep_counts. destruct (existsb _ _) eqn:X; [rewrite E; reflexivity|].
    assert (ms' = ms); [|subst; reflexivity]. apply nth_ext with (d := 0%nat) (d' := 0%nat); [exact L|]. intros k Hk. rewrite V.
    assert (Z : nth k (map (@length (list R)) sigs) 0%nat = 0%nat); [|lia]. destruct (Nat.eq_dec (nth k (map (@length (list R)) sigs) 0%nat) 0) as [Z|Z]; [exact Z|exfalso].
    assert (T : existsb (fun n => Nat.ltb 0 n) (map (@length (list R)) sigs) = true); [|congruence]. apply existsb_exists. exists (nth k (map (@length (list R)) sigs) 0%nat). split; [apply nth_In; rewrite map_length; lia|lia]. }
  split.
  { split; [rewrite map_length, combine_length; lia|]. rewrite L. intros k Hk. destruct (N k Hk) as (a & b & c & d). cbn zeta. rewrite (A k Hk), (V' k Hk). cbn [add_sensors nd_data nd_speech nd_noise nd_ref]. rewrite !app_length. cbn zeta in *. repeat split; lia. }
  split; [exact L|]. intros k Hk. destruct (N k Hk) as (a & b & c & d). cbn zeta in *. rewrite (A k Hk). split; [apply V', Hk|]. split; [reflexivity|]. split; [|split].
  - intros j Hj. unfold sensor_signals. rewrite (A k Hk). cbn [add_sensors nd_data nd_speech nd_noise]. rewrite !app_nth1 by lia. reflexivity.
  - intros j Hj. unfold sensor_signals. rewrite (A k Hk). cbn [add_sensors nd_data nd_speech nd_noise]. rewrite !app_nth2 by lia. rewrite a, b, c. replace (nth k ms 0 + j - nth k ms 0)%nat with j by lia. reflexivity.
  - intros [R1 R2]. unfold ref_signals. cbn [add_sensors nd_speech nd_noise nd_ref nd_speech_ref nd_noise_ref]. rewrite !app_nth1 by lia. split; assumption.
Qed.
(** The signals without sampling rate offsets, from which the best achievable performance
    is computed, do not get the added sensors. *)
Theorem C83_added_without_offsets_refuted nd s : s <> [] -> nd_sensors nd = length (nd_data0 nd) -> nd_sensors (add_sensors nd s) <> length (nd_data0 (add_sensors nd s)).
Proof. intros H E. cbn [add_sensors nd_sensors nd_data0]. destruct s; [congruence|]. cbn [length]. lia. Qed.
(** What an added sensor records is not the sum of its speech and its noise. *)
Theorem C83_added_mixture_refuted : exists nd s t, let nd' := add_sensors nd s in
  nth t (nth (length (nd_data nd)) (nd_data nd') []) 0 <> nth t (nth (length (nd_speech nd)) (nd_speech nd') []) 0 + nth t (nth (length (nd_noise nd)) (nd_noise nd') []) 0.
Proof. exists no_node, [[1]], 0%nat. cbn. lra. Qed.
(** Preparing twice counts the added sensors twice. *)
Theorem C83_prepared_twice_refuted : exists ms added ms1 m1 ms2 m2, length added = length ms /\
  prep_counts ms added (sensor_map ms) = Ok (ms1, m1) /\ prep_counts ms1 added m1 = Ok (ms2, m2) /\ ms1 <> ms2.
Proof. exists [1; 2]%nat, [0; 1]%nat, [1; 3]%nat, (sensor_map [1; 3]%nat), [1; 4]%nat, (sensor_map [1; 4]%nat). repeat split. discriminate. Qed.

(** two nodes with one and two sensors *)
Definition c83_net : list node := [mkNode 1 0 [[1]] [[2]] [[3]] [[4]] [[5]] [[6]] [2] [3]; mkNode 2 1 [[1]; [11]] [[2]; [12]] [[3]; [13]] [] [] [] [12] [13]].
Lemma c83_network : network [1; 2]%nat c83_net.
Proof. split; [reflexivity|]. intros [|[|k]] Hk; cbn in *; lia. Qed.
Example C83_example_replaced : exists w, set_to_noise (sensor_map [1; 2]%nat) [(0%nat, ([7], [8], [9])); (2%nat, ([70], [80], [90]))] c83_net = Ok w /\
  sensor_signals [1; 2]%nat w 1 1 = ([70], [80], [90]) /\ sensor_signals [1; 2]%nat w 0 0 = ([7], [8], [9]) /\ sensor_signals [1; 2]%nat w 1 0 = ([1], [2], [3]) /\ nd_noise_ref (node_at w 1) = [90].
Proof. eexists. split; [reflexivity|]. repeat split. Qed.
Example C83_example_added : exists w ms', add_all [[[5]]; []] c83_net = Ok w /\ prep_counts [1; 2]%nat [1; 0]%nat (sensor_map [1; 2]%nat) = Ok (ms', sensor_map ms') /\ ms' = [2; 2]%nat /\ network ms' w.
Proof.
  destruct (C83_added [1; 2]%nat [1; 0]%nat [[[5]]; []] c83_net c83_network eq_refl eq_refl) as (w & ms' & E1 & E2 & N & _). exists w, ms'. split; [exact E1|]. split; [exact E2|]. split; [injection E2 as <-; reflexivity|exact N].
Qed.
Example C83_example_params : post_init (1 # 2) [5; 4; 3]%Q 2 [1; 2]%nat [100]%Q 16000 = Ok ([100; 100]%Q, map (fun s => 16000 * (1 + s * (1 # 1000000)))%Q [100; 100]%Q, [0; 1; 1]%nat).
Proof. reflexivity. Qed.

Print Assumptions C83_per_node_values.
Print Assumptions C83_accepted.
Print Assumptions C83_room_size.
Print Assumptions C83_forgetting_factor.
Print Assumptions C83_forced_factor.
Print Assumptions C83_replaced.
Print Assumptions C83_first_sensor_refuted.
Print Assumptions C83_added.
Print Assumptions C83_added_without_offsets_refuted.
Print Assumptions C83_added_mixture_refuted.
Print Assumptions C83_prepared_twice_refuted.
