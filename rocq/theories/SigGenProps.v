(** C34-C38, C54: scenario generation. *)
From Verif Require Import Base BaseFacts SigGen SigGenSpec SigGenFacts SigGenFacts2.
From Coq Require Import QArith Reals Lra.
Open Scope nat_scope.

(** C35: sensor [j] is mapped to node [k] iff it lies in [k]'s contiguous block. *)
Theorem C35_contiguous_blocks ms j k : nth_error (sensor_map ms) j = Some k <-> belongs ms j k.
Proof. exact (sensor_map_spec ms j k). Qed.
Theorem C35_total_length ms : length (sensor_map ms) = list_sum ms.
Proof. exact (sensor_map_length ms). Qed.
(** ... selecting node [k]'s sensors takes that block, in order ... *)
Theorem C35_selection A ms k (x : list A) : length x = list_sum ms -> k < length ms ->
  sensors_of k (sensor_map ms) x = firstn (nth k ms 0) (skipn (before ms k) x) /\ length (sensors_of k (sensor_map ms) x) = nth k ms 0.
Proof.
  intros Hx Hk. rewrite (sensors_of_spec ms k x Hx Hk). split; [reflexivity|]. assert (H := before_le ms k Hk). rewrite firstn_length, skipn_length. lia.
Qed.
(** ... and the selections, one after the other, give all sensors back. *)
Theorem C35_partition A ms (x : list A) : length x = list_sum ms ->
  concat (map (fun k => sensors_of k (sensor_map ms) x) (seq 0 (length ms))) = x.
Proof.
  intros Hx. etransitivity; [|exact (blocks_concat ms x Hx)]. f_equal. apply map_ext_in. intros k Hk. apply in_seq in Hk. apply sensors_of_spec; [exact Hx | lia].
Qed.
Example C35_ex : sensor_map [2; 3; 1] = [0; 0; 1; 1; 1; 2] /\ sensors_of 1 (sensor_map [2; 3; 1]) [10; 11; 12; 13; 14; 15] = [12; 13; 14].
Proof. split; reflexivity. Qed.

(** C34: whatever the topology, the neighbour lists returned are symmetric,
    irreflexive, sorted without duplicates, and name existing nodes. *)
Theorem C34_symmetric_irreflexive_sorted s2n t nbrs : get_topo s2n t = Ok nbrs ->
  (forall k l, nth_error nbrs k = Some l -> StronglySorted lt l /\ ~ In k l /\ forall q, In q l -> q < length nbrs) /\
  (forall k q, neighbour nbrs k q <-> neighbour nbrs q k).
Proof. exact (get_topo_ok s2n t nbrs). Qed.

(** One list per node, provided the last node has a sensor. *)
Theorem C34_one_list_per_node ms t nbrs : ms <> [] -> nth (length ms - 1) ms 0 > 0 -> get_topo (sensor_map ms) t = Ok nbrs -> length nbrs = length ms.
Proof.
  intros H1 H2 H. destruct (get_topo_spec _ _ _ H) as [Hn _]. rewrite (num_nodes_spec ms H1 H2) in Hn. injection Hn as Hn. lia.
Qed.

Lemma neighbour_iff s2n t nbrs : get_topo s2n t = Ok nbrs -> exists m, conn_matrix (length nbrs) t = Ok m /\
  forall k q, neighbour nbrs k q <-> k < length nbrs /\ q < length nbrs /\ k <> q /\ (0 < m q k)%Z.
Proof.
  intros H. destruct (get_topo_spec _ _ _ H) as (_ & m & Hm & Hk). exists m. split; [exact Hm|]. intros k q. split.
  - intros [l [Hl Hq]]. assert (Hlt : k < length nbrs) by (apply nth_error_Some; congruence). rewrite (Hk k Hlt) in Hl. injection Hl as <-.
    apply filter_In in Hq. destruct Hq as [Hq1 Hq2]. apply in_seq in Hq1. apply andb_true_iff in Hq2. destruct Hq2 as [Hq2 Hq3]. split; [exact Hlt|]. split; [lia|]. split; [|lia].
    intros ->. rewrite Nat.eqb_refl in Hq3. discriminate.
  - intros (H1 & H2 & H3 & H4). eexists. split; [apply Hk; exact H1|]. apply filter_In. split; [apply in_seq; lia|].
    apply andb_true_iff. split; [lia|]. destruct (Nat.eqb_spec q k); [congruence | reflexivity].
Qed.

(** Which pairs are connected, per topology. *)
Theorem C34_fully_connected s2n nbrs : get_topo s2n FullyConnected = Ok nbrs ->
  forall k q, neighbour nbrs k q <-> k < length nbrs /\ q < length nbrs /\ k <> q.
Proof.
  intros H k q. destruct (neighbour_iff _ _ _ H) as (m & Hm & Hi). rewrite Hi. injection Hm as <-. split; [tauto|]. intros (H1 & H2 & H3). repeat split; try assumption; lia.
Qed.
Theorem C34_distance s2n c d nbrs : get_topo s2n (AdHocDist c d) = Ok nbrs ->
  forall k q, neighbour nbrs k q <-> k < length nbrs /\ q < length nbrs /\ k <> q /\ (dist3 (c k) (c q) < d)%R.
Proof.
  intros H k q. destruct (neighbour_iff _ _ _ H) as (m & Hm & Hi). rewrite Hi. injection Hm as <-.
  destruct (Rlt_dec (dist3 (c k) (c q)) d) as [Hd|Hd].
  - split; [tauto|]. intros (H1 & H2 & H3 & _). repeat split; try assumption; lia.
  - split; [intros (_ & _ & _ & H4); lia | tauto].
Qed.
Theorem C34_random s2n d nbrs : get_topo s2n (AdHocRandom d) = Ok nbrs ->
  forall k q, neighbour nbrs k q <-> k < length nbrs /\ q < length nbrs /\ k <> q /\ d (Nat.min k q) (Nat.max k q) = true.
Proof.
  intros H k q. destruct (neighbour_iff _ _ _ H) as (m & Hm & Hi). rewrite Hi. injection Hm as <-.
  destruct (lt_eq_lt_dec k q) as [[Hl| ->]|Hl]; [|split; [intros (_ & _ & H3 & _); congruence | intros (_ & _ & H3 & _); congruence]|].
  - destruct (Nat.leb_spec q k); [lia|]. destruct (Nat.ltb_spec k q); [|lia]. rewrite Nat.min_l, Nat.max_r by lia. cbn. destruct (d k q); split; intros (Ha & Hb & Hc & Hd); repeat split; try assumption; try lia; discriminate.
  - destruct (Nat.leb_spec q k); [|lia]. destruct (Nat.ltb_spec k q); [lia|]. rewrite Nat.min_r, Nat.max_l by lia. cbn. rewrite orb_false_r. destruct (d q k); split; intros (Ha & Hb & Hc & Hd); repeat split; try assumption; try lia; discriminate.
Qed.
(** User-defined matrices: accepted iff of the right shape, binary and symmetric. *)
Theorem C34_user_accepted_iff ms u : ms <> [] -> nth (length ms - 1) ms 0 > 0 ->
  let n := length ms in
  ((exists nbrs, get_topo (sensor_map ms) (UserDefined u) = Ok nbrs) <->
   m_rows u = n /\ m_cols u = n /\ forall i j, i < n -> j < n -> (m_at u i j = 0 \/ m_at u i j = 1)%Z /\ m_at u i j = m_at u j i) /\
  ((forall nbrs, get_topo (sensor_map ms) (UserDefined u) <> Ok nbrs) -> get_topo (sensor_map ms) (UserDefined u) = Err ValueError).
Proof.
  intros H1 H2 n. unfold get_topo. rewrite (num_nodes_spec ms H1 H2). fold n. cbn [bind conn_matrix].
  destruct (Nat.eqb_spec (m_rows u) n) as [E1|E1], (Nat.eqb_spec (m_cols u) n) as [E2|E2]; cbn [andb negb bind];
    try (split; [split; [intros [x Hx]; discriminate | tauto] | reflexivity]).
  destruct (all_entries n (fun i j => (m_at u i j =? 0) || (m_at u i j =? 1))%Z) eqn:B; cbn [negb bind].
  2:{ split; [|reflexivity]. split; [intros [x Hx]; discriminate|]. intros (_ & _ & Hb). exfalso. apply not_true_iff_false in B. apply B. apply all_entries_spec. intros i j Hi Hj. destruct (Hb i j Hi Hj). lia. }
  destruct (all_entries n (fun i j => m_at u i j =? m_at u j i)%Z) eqn:S; cbn [negb bind].
  2:{ split; [|reflexivity]. split; [intros [x Hx]; discriminate|]. intros (_ & _ & Hb). exfalso. apply not_true_iff_false in S. apply S. apply all_entries_spec. intros i j Hi Hj. destruct (Hb i j Hi Hj). lia. }
  rewrite all_entries_spec in B, S. split.
  - split; [intros _ | intros _; eexists; reflexivity]. split; [exact E1|]. split; [exact E2|]. intros i j Hi Hj. specialize (B i j Hi Hj). specialize (S i j Hi Hj). lia.
  - intros H. exfalso. eapply H. reflexivity.
Qed.
Theorem C34_user_edges s2n u nbrs : get_topo s2n (UserDefined u) = Ok nbrs ->
  forall k q, neighbour nbrs k q <-> k < length nbrs /\ q < length nbrs /\ k <> q /\ m_at u k q = 1%Z.
Proof.
  intros H k q. destruct (neighbour_iff _ _ _ H) as (m & Hm & Hi). rewrite Hi. assert (Hs := conn_sym _ _ _ Hm). unfold conn_matrix in Hm.
  destruct (negb (_ && _)); [discriminate|]. destruct (all_entries (length nbrs) (fun i j => (m_at u i j =? 0) || (m_at u i j =? 1))%Z) eqn:B; cbn [negb] in Hm; [|discriminate]. destruct (negb (all_entries _ _)); [discriminate|]. injection Hm as Hm. subst m.
  rewrite all_entries_spec in B.
  split; intros (H1 & H2 & H3 & H4); repeat split; try assumption; specialize (Hs k q H1 H2); specialize (B k q H1 H2); lia.
Qed.
Theorem C34_unknown_rejected s2n nbrs : get_topo s2n Unknown <> Ok nbrs.
Proof. unfold get_topo. destruct (num_nodes s2n); discriminate. Qed.
Example C34_ex : get_topo (sensor_map [2; 1; 1]) (UserDefined (mkI 3 3 (fun i j => if (Nat.eqb i 1 || Nat.eqb j 1) then 1 else 0)%Z)) = Ok [[1]; [0; 2]; [1]].
Proof. reflexivity. Qed.
Example C34_ex_asym : get_topo (sensor_map [1; 1]) (UserDefined (mkI 2 2 (fun i j => if Nat.ltb i j then 1 else 0)%Z)) = Err ValueError.
Proof. reflexivity. Qed.
(** Refuted without its hypothesis: trailing nodes without sensors are dropped. *)
Theorem C34_sensorless_node_dropped_refuted : exists ms nbrs, get_topo (sensor_map ms) FullyConnected = Ok nbrs /\ length nbrs < length ms.
Proof. exists [1; 1; 0], [[1]; [0]]. split; [reflexivity | cbn; lia]. Qed.

(** C36 *)
Theorem C36_looped_or_truncated A (d : A) y n fuel : y <> [] -> n <= fuel ->
  exists z, source_signal fuel n y = Ok z /\ length z = n /\ forall i, i < n -> nth i z d = nth (i mod length y) y d.
Proof.
  intros Hy Hf. destruct (source_ok d y n fuel Hy Hf) as (z & H1 & H2 & H3). exists z. split; [exact H1|]. split; [exact H2|]. intros i Hi. apply H3. lia.
Qed.
Theorem C36_empty_never_terminates A n fuel : 0 < n -> source_signal fuel n (@nil A) = Err OutOfFuel.
Proof. exact (source_empty n fuel). Qed.
Example C36_ex : source_signal 8 8 [1; 2; 3] = Ok [1; 2; 3; 1; 2; 3; 1; 2] /\ source_signal 2 2 [1; 2; 3] = Ok [1; 2].
Proof. split; reflexivity. Qed.

(** C37: entry [i] tells whether frame [i] is complete and at least the
    proportion [prop] of its samples is active. *)
Theorem C37_vad_per_frame flen shift prop vad : vad <> [] -> 0 < shift ->
  exists r, vad_per_frame flen shift prop vad = Ok r /\
  length r = Nat.min (length vad / shift) (complete_frames flen shift (length vad) + 1) /\
  forall i, i < length r -> (nth i r false = true <->
     i * shift + flen <= length vad /\
     (inject_Z (Z.of_nat flen) * prop <= inject_Z (Z.of_nat (count_occ bool_dec (firstn flen (skipn (i * shift) vad)) true)))%Q).
Proof.
  intros Hv Hs. destruct (vad_frames_spec flen shift prop vad Hv Hs) as (r & H1 & H2 & H3). exists r. split; [exact H1|]. split; [exact H2|].
  intros i Hi. rewrite (H3 i Hi). 
  assert (E : forall l, ones l = count_occ bool_dec l true).
  { induction l as [|[|] l IH]; [reflexivity| |]; unfold ones in *; cbn; [f_equal|]; exact IH. }
  rewrite E. destruct (Nat.leb_spec (i * shift + flen) (length vad)); [rewrite Qle_bool_iff; tauto|]. split; [discriminate | lia].
Qed.
Theorem C37_empty_rejected flen shift prop : vad_per_frame flen shift prop [] = Err ValueError.
Proof. reflexivity. Qed.
(** [complete_frames] is the number of complete frames. *)
Theorem C37_complete_frames flen shift n i : 0 < shift -> (i < complete_frames flen shift n <-> i * shift + flen <= n).
Proof.
  intros Hs. unfold complete_frames. destruct (Nat.leb_spec flen n); [|split; [lia | nia]]. split; intros H0.
  - assert (H1 : i <= (n - flen) / shift) by lia. assert (H2 := Nat.mul_div_le (n - flen) shift ltac:(lia)). nia.
  - assert (i <= (n - flen) / shift); [apply Nat.div_le_lower_bound; nia | lia].
Qed.
Example C37_ex : vad_per_frame 4 2 (1 # 2) [true; true; false; false; false; true; true; true; false] = Ok [true; false; true; false].
Proof. reflexivity. Qed.

(** C38: either the first utterance end (with a pause long enough, and speech
    resuming after it) is returned, or there is none and IndexError is raised. *)
Theorem C38_first_utterance thr vad : vad <> [] ->
  (exists i j, end_1st thr vad = Ok i /\ beginning_2nd thr vad = Ok j /\ first_end thr vad i j) \/
  (end_1st thr vad = Err IndexError /\ beginning_2nd thr vad = Err IndexError /\ forall i j, ~ ends_utterance thr vad i j).
Proof. intros H. destruct vad as [|v l]; [congruence|]. exact (key_spec v l thr). Qed.
Theorem C38_beginning_first vad i : vad <> [] -> (beginning_1st vad = Ok i <-> nth i vad false = true /\ forall k, k < i -> nth k vad false = false).
Proof. intros H. destruct vad as [|v l]; [congruence|]. exact (beg_spec v l i). Qed.
(** Refuted: a final silence, however long, never counts. *)
Theorem C38_final_silence_refuted : forall n, exists vad, nth 1 vad false = true /\ length vad = n + 2 /\ (forall k, 2 <= k < n + 2 -> nth k vad true = false) /\
  end_1st 2 vad = Err IndexError.
Proof.
  intros n. exists (false :: true :: repeat false n). split; [reflexivity|]. split; [cbn; rewrite repeat_length; lia|]. split.
  - intros k Hk. destruct k as [|[|k]]; try lia. cbn. rewrite (nth_indep _ true false) by (rewrite repeat_length; lia).
    assert (G : forall m j, nth j (repeat false m) false = false) by (induction m; intros [|j]; cbn; auto). apply G.
  - destruct (C38_first_utterance 2 (false :: true :: repeat false n) ltac:(discriminate)) as [(i & j & _ & _ & [He _])|[H _]]; [|exact H].
    exfalso. destruct He as (H1 & H2 & H3 & H4 & H5 & _).
    assert (G : forall m j, nth j (repeat false m) false = false) by (induction m; intros [|j']; cbn; auto).
    destruct j as [|[|j]]; [lia | | cbn in H5; rewrite G in H5; discriminate]. assert (i = 0) by lia. lia.
Qed.
Example C38_ex : end_1st 3 [false; true; true; false; false; true; false; false; false; true] = Ok 6 /\
  beginning_2nd 3 [false; true; true; false; false; true; false; false; false; true] = Ok 9 /\ beginning_1st [false; true; true; false; false; true] = Ok 1.
Proof. repeat split. Qed.

(** C54: the conversion is right for microphone 0 ... *)
Theorem C54_first_microphone ms : ms <> [] -> 0 < nth 0 ms 0 -> ref_mic ms 0 = Ok (0, 0%Z).
Proof.
  intros H1 H2. assert (HL : 0 < length ms) by (destruct ms; [congruence | cbn; lia]). rewrite (ref_mic_value ms 0 HL H2). unfold before. cbn. reflexivity.
Qed.
(** ... and whenever it is right, the sensor is in range and the pair designates it. *)
Definition designates (ms : list nat) (r : nat * Z) (mic : nat) : Prop :=
  belongs ms mic (fst r) /\ (0 <= snd r)%Z /\ Z.of_nat mic = (Z.of_nat (before ms (fst r)) + snd r)%Z.
Theorem C54_right_iff ms mic : (forall k, k < length ms -> 0 < nth k ms 0) -> mic < list_sum ms ->
  ((exists r, ref_mic ms mic = Ok r /\ designates ms r mic) <-> mic < length ms /\ before ms mic = mic).
Proof.
  intros Hp Hm. split.
  - intros (r & Hr & Hd). destruct (le_lt_dec (length ms) mic) as [Hl|Hl]; [rewrite (ref_mic_none ms mic Hl) in Hr; discriminate|]. split; [exact Hl|].
    rewrite (ref_mic_value ms mic Hl (Hp mic Hl)) in Hr. injection Hr as <-. destruct Hd as ([[B1 B2] B3] & _ & _). cbn [fst] in *.
    assert (G1 := before_ge ms Hp mic ltac:(lia)). assert (G2 := before_ge ms Hp (before ms mic) ltac:(lia)). lia.
  - intros [Hl Hb]. eexists. split; [apply (ref_mic_value ms mic Hl (Hp mic Hl))|]. unfold designates, belongs. cbn [fst snd]. rewrite !Hb. specialize (Hp mic Hl). lia.
Qed.
(** Refuted: microphone 1 of a network of two two-sensor nodes. *)
Theorem C54_refuted : exists ms mic, (forall k, k < length ms -> 0 < nth k ms 0) /\ belongs ms mic 0 /\ ref_mic ms mic = Ok (2, (-3)%Z) /\ length ms = 2.
Proof.
  exists [2; 2], 1. split; [intros [|[|k]] Hk; cbn in *; lia|]. split; [unfold belongs, before; cbn; lia|]. split; reflexivity.
Qed.
Theorem C54_raises_refuted : exists ms mic, belongs ms mic 1 /\ ref_mic ms mic = Err IndexError.
Proof. exists [2; 2], 3. split; [unfold belongs, before; cbn; lia | reflexivity]. Qed.
Example C54_ex : ref_mic [1; 1; 1] 2 = Ok (2, 0%Z).
Proof. reflexivity. Qed.

Print Assumptions C34_symmetric_irreflexive_sorted.
Print Assumptions C34_user_accepted_iff.
Print Assumptions C35_contiguous_blocks.
Print Assumptions C35_selection.
Print Assumptions C35_partition.
Print Assumptions C36_looped_or_truncated.
Print Assumptions C37_vad_per_frame.
Print Assumptions C38_first_utterance.
Print Assumptions C38_final_silence_refuted.
Print Assumptions C54_right_iff.
