(** Property C68: frames received, and completion of runs.  Vocabulary: LatestSpec.v. *)
From Verif Require Import Base BaseFacts Sched SchedSpec InstSpec InstFacts Buffers BufSpec BufFacts Chunk ChunkSpec ChunkFacts Cx CxFacts Wola WolaFacts Dist Online OnlineSpec OnlineProps OutSpec OutFacts OutFacts2 OutFacts3 OutProps SchedProps DistSpec DistFacts2 DistProps SyncFacts LatestSpec LatestFacts LatestFacts2 LatestFacts3 LatestFacts4 LatestFacts5 CompleteFacts CompleteFacts3.
From Coq Require Import Reals Lra.
Local Open Scope Z_scope.

Lemma sorted_times evs : StronglySorted before evs -> forall i j a b, (i < j)%nat -> nth_error evs i = Some a -> nth_error evs j = Some b -> fst a <= fst b.
Proof.
  induction 1 as [|x l Hl IH HF]; intros i j a b Hij Ha Hb; [destruct i; discriminate|].
  destruct j as [|j]; [lia|]. destruct i as [|i]; cbn in Ha, Hb; [injection Ha as <-|apply (IH i j); [lia|assumption|assumption]].
  rewrite Forall_forall in HF. destruct (HF b (nth_error_In _ _ Hb)) as [?|[? _]]; lia.
Qed.

(** ** C68 *)
(** Any succession of sends and reads: the frame node [k] has for a neighbour [q] after a
    read consists of the latest [N] samples [q] had sent (zeros before its first). *)
Theorem C68_latest_samples A (zero : A) nb N Ns h k st idx q :
  0 < N -> symmetric_net nb -> exec zero nb N Ns (h ++ [Read k]) (start_state A nb) = Ok st -> link nb k idx q ->
  exists zk, nth_error (b_z st) k = Some zk /\ nth_error zk idx = Some (latest zero (Z.to_nat N) (sent q h)).
Proof.
  intros HN Hnet E HL. destruct (latest_inv A zero nb N Ns HN Hnet (h ++ [Read k]) st E k idx q HL) as (zk & frame & X & Z1 & Z2 & Z3 & Z4).
  { rewrite reads_snoc, Nat.eqb_refl. lia. }
  exists zk. split; [exact Z1|]. rewrite Z2. f_equal. rewrite received_snoc, Nat.eqb_refl, sent_snoc, !app_nil_r in Z4.
  unfold latest. rewrite Z4. assert (L := f_equal (@length A) Z4). rewrite !app_length, repeat_length in L.
  replace (length (sent q h)) with (length X + 0)%nat by lia. rewrite skipn_app, Nat.add_0_r, skipn_all, Nat.sub_diag. reflexivity.
Qed.

(** Any run, whatever the clocks, the scheme and the schedule: after an update of node [k]
    its frame from neighbour [q] consists of the latest [N] samples [q] has sent. *)
Theorem C68_frames_in_runs c y sched nsens ref T m t k s idx q :
  let p := o_p c in
  let st0 := online_init 0%R c nsens ref T in
  0 < p_N p -> 0 <= p_Ns p -> symmetric_net (map nbrs (o_nodes c)) -> link (map nbrs (o_nodes c)) k idx q ->
  nth_error (flat_events sched) m = Some (t, (k, Up)) -> reached c y sched st0 (S m) = Ok s ->
  received_frame s k idx = latest 0%R (Z.to_nat (p_N p)) (samples_sent c y sched st0 q m).
Proof. intros p st0 HN HNs. exact (frame_received c y sched nsens ref T HNs m t k s idx q HN). Qed.

(** Synchronous networks: runs finish without error.  Whole-chunk broadcasting: for
    frames of two hops. *)
Theorem C68_completes tsort c y nsens q T ref ordering_of per :
  is_argsort tsort -> regular c per T -> consistent c y nsens q T ->
  (p_whole (o_p c) = true -> p_N (o_p c) = 2 * p_Ns (o_p c)) ->
  exists sched r, initialize_events tsort (o_p c) (o_nodes c) ordering_of = Ok (sched, []) /\
    online_run c y sched (online_init 0%R c nsens ref T) = Ok r.
Proof.
  intros Hs [R1 R2 R3 R4 R5 R6 R7 R8 R9] Hc Hw.
  destruct (completes tsort c y nsens q T ref ordering_of per Hc Hs R1 R2 (fun H => Logic.conj (R3 H) (Hw H)) R4 R5 R6 R7 R8 R9) as (sched & r & E1 & _ & E2).
  exists sched, r. auto.
Qed.

(** Synchronous networks: the frames received are aligned with those of the local
    sensors.  At an update of node [k], sample [i] of its frame from neighbour [q] goes
    with sample [n] of the local signals, and is the sample with that number in the block
    that [q] sent: the block sent at a broadcast covers the last [blen] samples before
    the end of the frame of that instant. *)
Theorem C68_aligned tsort c ordering_of per Nt :
  is_argsort tsort -> regular c per Nt ->
  let p := o_p c in
  let len := if p_whole p then p_Ns p else p_L p in
  exists sched, initialize_events tsort p (o_nodes c) ordering_of = Ok (sched, []) /\
  forall y nsens ref T m t k idx q s i,
    let st0 := online_init 0%R c nsens ref T in
    nth_error (flat_events sched) m = Some (t, (k, Up)) -> link (map nbrs (o_nodes c)) k idx q ->
    reached c y sched st0 (S m) = Ok s -> (i < Z.to_nat (p_N p))%nat ->
    let n := frame_end c k t - p_N p + Z.of_nat i in
    (n < 0 -> nth i (received_frame s k idx) 0%R = 0%R) /\
    (0 <= n -> exists m' t' s', (m' < m)%nat /\ nth_error (flat_events sched) m' = Some (t', (q, Bc)) /\
       reached c y sched st0 (S m') = Ok s' /\ length (block c q s') = Z.to_nat len /\
       frame_end c q t' - len <= n < frame_end c q t' /\
       nth i (received_frame s k idx) 0%R = nth (Z.to_nat (n - (frame_end c q t' - len))) (block c q s') 0%R).
Proof.
  intros Hs [R1 R2 R3 R4 R5 R6 R7 R8 R9] p len.
  assert (Heff : p_whole p = true \/ p_efficient p = false) by (destruct (p_whole p) eqn:Ew; [now left|right; now apply R4]).
  destruct (sync_schedule tsort p (o_nodes c) ordering_of per Nt Hs R1 R3 R2 Heff R5 R7 R8) as (sched & E & Hev).
  exists sched. split; [exact E|]. intros y nsens ref T m t k idx q s i st0 Hm HL Hr Hi n.
  assert (Hclk : forall nd, In nd (o_nodes c) -> period nd = per) by (intros nd Hnd; apply (proj2 R8 nd Hnd)).
  destruct (aligned c y sched nsens ref T per Nt R1 R3 Heff R5 R6 (proj1 R8) Hclk R9 Hev m t k idx q s i Hm HL Hr Hi) as [A B].
  split; [exact A|]. intros Hn. destruct (B Hn) as (m' & t' & s' & B1 & B2 & B3 & B4 & _ & B5). exists m', t', s'.
  split; [exact B1|]. split; [exact B2|]. split; [exact B3|]. split; [|split; [exact B4|exact B5]].
  assert (B3' := B3). rewrite reached_S in B3'. apply bind_ok in B3'. destruct B3' as (s1 & E1 & E2). rewrite B2 in E2.
  apply (block_length c y sched nsens ref T R1 R3 Heff R5 m' (t', (q, Bc)) s1 s' q E1 E2). unfold is_bc. cbn. apply Nat.eqb_refl.
Qed.

(** Few-samples broadcasting, external filters that select the reference sensor: whole
    runs, from the schedule on.  All frames node [k] receives from [q] contain the
    reference signal of [q], aligned with the local signals, at the gain of sending. *)
Theorem C68_reference_received tsort c y nsens qq T ref ordering_of per :
  is_argsort tsort -> regular c per T -> consistent c y nsens qq T -> p_whole (o_p c) = false ->
  (forall k, (k < length y)%nat -> (ref < length (nth k y []))%nat /\ (o_nofuse c = false \/ length (nth k y []) <> 1%nat) /\
     forall i, selects qq (o_ext c k i) ref) ->
  exists sched r, initialize_events tsort (o_p c) (o_nodes c) ordering_of = Ok (sched, []) /\
    online_run c y sched (online_init 0%R c nsens ref T) = Ok r /\
    forall m t k idx q, nth_error (flat_events sched) m = Some (t, (k, Up)) -> link (map nbrs (o_nodes c)) k idx q ->
      exists s, reached c y sched (online_init 0%R c nsens ref T) (S m) = Ok s /\
        forall i, (i < 2 * qq)%nat ->
          let n := frame_end c k t - Z.of_nat (2 * qq) + Z.of_nat i in
          (nth i (received_frame s k idx) 0 = send_gain c per n * sample 0 (nth ref (nth q y []) []) n)%R.
Proof.
  intros Hs HR Hc Hwh Hsel. pose proof HR as [R1 R2 R3 R4 R5 R6 R7 R8 R9].
  assert (Heff : p_efficient (o_p c) = false) by (now apply R4).
  destruct (completes tsort c y nsens qq T ref ordering_of per Hc Hs R1 R2 ltac:(intros X; congruence) R4 R5 R6 R7 R8 R9) as (sched & r & E1 & Hev & E2).
  exists sched, r. split; [exact E1|]. split; [exact E2|]. intros m t k idx q Hm HL.
  assert (Lm : (m < length (flat_events sched))%nat) by (apply nth_error_Some; congruence).
  destruct (run_reached c y sched (online_init 0%R c nsens ref T) r (S m) E2) as (s & Es). exists s. split; [exact Es|]. intros i Hi n.
  destruct (cs_frame _ _ _ _ _ Hc) as [Hq EN]. destruct (cs_windows _ _ _ _ _ Hc) as (Hh & Hf & _). pose proof (cs_nodes _ _ _ _ _ Hc) as LN.
  assert (Hclk : forall nd, In nd (o_nodes c) -> period nd = per) by (intros nd Hnd; apply (proj2 R8 nd Hnd)).
  destruct (aligned c y sched nsens ref T per T R1 R3 (or_intror Heff) R5 R6 (proj1 R8) Hclk R9 Hev m t k idx q s i Hm HL Es ltac:(lia)) as [A B].
  rewrite EN in A, B. fold n in A, B.
  destruct (Z.ltb_spec n 0) as [Hn|Hn]; [rewrite (A Hn); unfold sample; destruct (Z.ltb_spec n 0); [lra|lia]|].
  destruct (B Hn) as (m' & t' & s' & B1 & B2 & B3 & B4 & B5 & B6). rewrite B6.
  assert (Hqn : (q < length y)%nat).
  { destruct HL as [l [Hl Hx]]. destruct (proj1 R9 _ _ Hl) as [_ [_ Hr]]. specialize (Hr q (nth_error_In _ _ Hx)). rewrite map_length in Hr. lia. }
  destruct (Hsel q Hqn) as (Href & Hfu & Hext).
  pose proof (cs_signals _ _ _ _ _ Hc) as HSg. rewrite Forall_forall in HSg. destruct (HSg (nth q y []) (nth_In _ _ Hqn)) as [_ HT].
  assert (Hns : nth_error nsens q = Some (length (nth q y []))).
  { rewrite (cs_sensors _ _ _ _ _ Hc). rewrite nth_error_map, (nth_error_nth' y [] Hqn). reflexivity. }
  assert (HLb : (p_L (o_p c) <= p_N (o_p c))).
  { apply Z.le_trans with (p_Ns (o_p c)); apply Z.divide_pos_le; (apply R1 || assumption). }
  destruct R1 as (HN & HNs & HLp).
  assert (BL : blen c = p_L (o_p c)) by (unfold blen; now rewrite Hwh). rewrite BL in *.
  assert (FB : first_bc (o_p c) = p_L (o_p c)) by (unfold first_bc; now rewrite Hwh). rewrite FB in B5.
  assert (Et : t' / period (nth q (o_nodes c) (mkNode 1 [] [])) = (n / p_L (o_p c) + 1) * p_L (o_p c)).
  { assert (Hqo : (q < length (o_nodes c))%nat) by lia. rewrite (Hclk _ (nth_In _ (mkNode 1 [] []) Hqo)), B5, Z.div_mul by (destruct R8; lia). ring. }
  assert (FE : frame_end c q t' = (n / p_L (o_p c) + 1) * p_L (o_p c)) by (unfold frame_end; rewrite Hwh, Et; lia).
  assert (BT : In (t', (q, Bc)) (flat_events sched)) by (apply nth_error_In in B2; exact B2).
  assert (Hle : 0 <= t' / period (nth q (o_nodes c) (mkNode 1 [] [])) <= Z.of_nat T).
  { rewrite Et. split; [pose proof (Z.div_pos n (p_L (o_p c)) Hn HLp); nia|]. apply (se_bc _ _ _ _ _ Hev) in BT. destruct BT as [_ [j [Ej Hj]]].
    rewrite B5 in Ej. destruct R8 as [Hper _]. apply Z.mul_reg_r in Ej; [|lia]. rewrite FB in *. pose proof (Z.mul_div_le (Z.of_nat (T - 1)) (p_L (o_p c)) HLp). lia. }
  destruct (C67_selecting_filters c y qq T q sched nsens ref r m' t' Hq EN Hh Hf Hwh Heff ltac:(lia) HT Href Hns Hfu) as (s'' & gain & Q1 & Q2 & Q3 & Q4); try assumption.
  { intros j. destruct (cs_ext _ _ _ _ _ Hc q j Hqn) as [X1 X2]. auto. }
  rewrite B3 in Q1. injection Q1 as <-. unfold block. rewrite Hwh, Q2, Et.
  pose proof (Z.div_mod n (p_L (o_p c)) ltac:(lia)) as DM. pose proof (Z.mod_pos_bound n (p_L (o_p c)) HLp) as MB.
  rewrite WolaFacts.nth_map_seq by lia. rewrite Z2Nat.id by lia.
  replace ((n / p_L (o_p c) + 1) * p_L (o_p c) - p_L (o_p c) + (n - (frame_end c q t' - p_L (o_p c)))) with n by lia.
  f_equal. unfold send_gain.
  replace ((n / p_L (o_p c) + 1) * p_L (o_p c) * per) with t' by (rewrite B5; ring).
  assert (T0 : 0 <= t') by (rewrite B5; pose proof (Z.div_pos n (p_L (o_p c)) Hn HLp); destruct R8; nia).
  destruct (Z.ltb_spec t' (o_every c)) as [Hlt|Hge].
  - apply Q3. intros m1 t1 Hm1 E. 
    assert (Hle1 : t1 <= t').
    { destruct (Nat.eq_dec m1 m') as [->|Hne]; [rewrite B2 in E; injection E as ->; lia|].
      exact (sorted_times _ (se_sorted _ _ _ _ _ Hev) m1 m' _ _ ltac:(lia) E B2). }
    assert (BT1 : In (t1, (q, Bc)) (flat_events sched)) by (apply nth_error_In in E; exact E).
    apply (se_bc _ _ _ _ _ Hev) in BT1. destruct BT1 as [_ [j [-> _]]]. rewrite FB in *. destruct R8 as [Hper _].
    assert (0 <= (p_L (o_p c) + Z.of_nat j * p_L (o_p c)) * per) by nia. lia.
  - apply Q4. exists m', t'. split; [lia|]. split; [exact B2|]. lia.
Qed.

(** As above with, at node [k], filters that select the channel of neighbour [q]: the
    desired signal estimate of [k] is the reference signal of [q], with the gain of sending
    and the overlap of the windows. *)
Theorem C68_neighbour_output tsort c y nsens qq T ref ordering_of per k idx q :
  is_argsort tsort -> regular c per T -> consistent c y nsens qq T -> p_whole (o_p c) = false -> o_comp c = false ->
  (forall k, (k < length y)%nat -> (ref < length (nth k y []))%nat /\ (o_nofuse c = false \/ length (nth k y []) <> 1%nat) /\
     forall i, selects qq (o_ext c k i) ref) ->
  link (map nbrs (o_nodes c)) k idx q -> (forall i, selects qq (o_int c k i) (length (nth k y []) + idx)) ->
  exists sched r, initialize_events tsort (o_p c) (o_nodes c) ordering_of = Ok (sched, []) /\
    online_run c y sched (online_init 0%R c nsens ref T) = Ok r /\
    forall n, (at2 (os_d r) k n = send_gain c per (Z.of_nat n) * at3 y q ref n * overlap c qq k sched n)%R.
Proof.
  intros Hs HR Hc Hwh Hco Hsel HL Hint. pose proof HR as [R1 R2 R3 R4 R5 R6 R7 R8 R9].
  destruct (C68_reference_received tsort c y nsens qq T ref ordering_of per Hs HR Hc Hwh Hsel) as (sched & r & E1 & E2 & HF).
  exists sched, r. split; [exact E1|]. split; [exact E2|]. intros n.
  assert (Heff : p_efficient (o_p c) = false) by (now apply R4).
  destruct (sync_schedule tsort (o_p c) (o_nodes c) ordering_of per T Hs R1 R3 R2 (or_intror Heff) R5 R7 R8) as (sched' & E1' & Hev).
  rewrite E1 in E1'. injection E1' as <-.
  destruct (cs_frame _ _ _ _ _ Hc) as [Hq EN]. destruct (cs_windows _ _ _ _ _ Hc) as (Hh & Hf & Hwl). pose proof (cs_nodes _ _ _ _ _ Hc) as LN.
  assert (Hk : (k < length (o_nodes c))%nat).
  { destruct HL as [l [Hl _]]. rewrite <- (map_length nbrs). apply nth_error_Some. congruence. }
  assert (Lns : length nsens = length (o_nodes c)) by (rewrite (cs_sensors _ _ _ _ _ Hc), map_length; exact LN).
  pose proof (cs_signals _ _ _ _ _ Hc) as HSg. rewrite Forall_forall in HSg. assert (Hky : (k < length y)%nat) by lia. destruct (HSg (nth k y []) (nth_In _ [] Hky)) as [_ HT].
  assert (HE : forall t, In (t, (k, Up)) (flat_events sched) -> 0 <= frame_end c k t <= Z.of_nat T).
  { intros t Ht. apply (se_up _ _ _ _ _ Hev) in Ht. destruct Ht as [_ [j [-> Hj]]]. unfold frame_end. rewrite Hwh.
    rewrite (proj1 (proj2 R8 _ (nth_In _ _ Hk))), Z.div_mul by (destruct R8; lia). destruct R1 as (HN & HNs & HLp).
    pose proof (Z.mul_div_le (Z.of_nat (T - 1)) (p_Ns (o_p c)) HNs). assert (0 <= Z.of_nat j * p_Ns (o_p c)) by nia. lia. }
  destruct (C66_danse_output c y qq T k sched nsens ref r) as (x & Hx & ->); try assumption.
  { split; [exact Hq|]. split; [exact EN|]. split; [apply R1|]. auto. }
  unfold overlap. rewrite <- sum_updates_scale. apply sum_updates_eq. intros m t Hm. destruct (Hx m t Hm) as (s & Es & F). cbv zeta in F.
  destruct (HF m t k idx q Hm HL) as (s' & Es' & HV). rewrite Es in Es'. injection Es' as <-.
  set (e := frame_end c k t) in *. unfold placed. cbv zeta.
  destruct ((e - Z.of_nat (2 * qq) <=? Z.of_nat n) && (Z.of_nat n <? e))%bool eqn:IN; [|ring].
  assert (HI : e - Z.of_nat (2 * qq) <= Z.of_nat n < e) by lia.
  set (j := Z.to_nat (Z.of_nat n - (e - Z.of_nat (2 * qq)))). assert (Hj : (j < 2 * qq)%nat) by lia.
  assert (LZ : (idx < length (nth k (b_z (os_b s)) []))%nat).
  { destruct (le_lt_dec (length (nth k (b_z (os_b s)) [])) idx) as [Hge|]; [exfalso|assumption].
    destruct (as_history c y sched nsens ref T ltac:(destruct R1; lia) (S m) s Es) as (h & H1 & H2 & H3).
    destruct (latest_inv R 0%R (map nbrs (o_nodes c)) (p_N (o_p c)) (p_Ns (o_p c)) ltac:(apply R1) R9 h _ H1 k idx q HL) as (zk & frame & X & Z1 & Z2 & _).
    { rewrite H3. rewrite (updates_S k (flat_events sched) m), Hm. unfold is_update. cbn. rewrite Nat.eqb_refl. lia. }
    cbn [set_last b_z] in Z1. rewrite (nth_error_nth _ _ [] Z1) in Hge. apply nth_error_None in Hge. congruence. }
  set (z := nth k (b_z (os_b s)) []) in *. set (nch := (length (nth k y []) + length z)%nat) in *.
  rewrite (flat_filtered qq (o_h c) _ nch _ _ (x m) Hq (selects_flat qq _ (length (nth k y []) + idx) nch (Hint _)) F j Hj).
  rewrite (sumR_select nch (length (nth k y []) + idx) (fun ch => frame_with y z k (2 * qq) e ch j)) by (unfold nch; lia).
  unfold frame_with. destruct (Nat.ltb_spec (length (nth k y []) + idx) (length (nth k y []))); [lia|].
  replace (length (nth k y []) + idx - length (nth k y []))%nat with idx by lia.
  specialize (HV j Hj). cbv zeta in HV. unfold received_frame in HV. fold z e in HV. rewrite HV.
  replace (e - Z.of_nat (2 * qq) + Z.of_nat j) with (Z.of_nat n) by lia.
  unfold at3, sample. destruct (Z.ltb_spec (Z.of_nat n) 0); [lia|]. rewrite Nat2Z.id. ring.
Qed.

(** Two nodes, frames of two samples, hops of one, filter renewed from the third sample
    on.  Node 0 listens to node 1: its output is the signal of node 1. *)
Definition c68_cfg : ocfg :=
  mkO (mkP 2 1 1 false false false false false 0 0) [mkNode 1 [0; 1; 2; 3; 4; 5] [1%nat]; mkNode 1 [0; 1; 2; 3; 4; 5] [0%nat]]
      [1; 1]%R [/ 2; / 2]%R true false false 3 false
      (fun k i => [[cone; cone]]) (fun k i => [[czero; czero]; [cone; cone]]) (fun k i => [[cone; cone]])
      (fun k i => []).
Definition c68_y : list (list (list R)) := [[[1; 2; 3; 4; 5; 6]]; [[7; 8; 9; 10; 11; 12]]]%R.
Lemma c68_regular : regular c68_cfg 1 6.
Proof.
  constructor; try (cbn; lia); try discriminate.
  - exists 2. reflexivity.
  - exists 1. reflexivity.
  - split; [lia|]. intros nd [<-|[<-|[]]]; split; reflexivity.
  - assert (X : forall k l, nth_error [[1%nat]; [0%nat]] k = Some l -> (k = 0 /\ l = [1])%nat \/ (k = 1 /\ l = [0])%nat).
    { intros [|[|k]] l E; cbn in E; try (injection E as <-); auto. destruct k; discriminate. }
    split.
    + intros k l E. destruct (X k l E) as [[-> ->]|[-> ->]]; (split; [repeat constructor; intros []|]); split; cbn; intuition lia.
    + intros k a lk la E1 E2. destruct (X k lk E1) as [[-> ->]|[-> ->]]; destruct (X a la E2) as [[-> ->]|[-> ->]]; cbn; intuition congruence.
Qed.
Lemma c68_consistent : consistent c68_cfg c68_y [1; 1]%nat 1 6.
Proof.
  constructor; try reflexivity; try discriminate.
  - repeat constructor; discriminate.
  - split; [lia|reflexivity].
  - repeat split.
  - intros [|[|k]] i Hk; [| |cbn in Hk; lia]; split; repeat constructor.
  - intros [|[|k]] i Hk; [| |cbn in Hk; lia]; split; repeat constructor.
  - intros [|[|k]] i Hk; [| |cbn in Hk; lia]; split; repeat constructor.
Qed.
Local Ltac compute_z :=
  repeat match goal with
  | |- context [if ?b then _ else _] => let b' := eval vm_compute in b in change b with b'; cbv iota
  | |- context [Z.to_nat ?z] => let n := eval vm_compute in (Z.to_nat z) in change (Z.to_nat z) with n
  end.
Example C68_ex : exists sched r,
  initialize_events tsort0 (o_p c68_cfg) (o_nodes c68_cfg) (fun _ => []) = Ok (sched, []) /\
  online_run c68_cfg c68_y sched (online_init 0%R c68_cfg [1; 1]%nat 0 6) = Ok r /\
  at2 (os_d r) 0 1 = (1 * 8 * 1)%R /\ at2 (os_d r) 0 2 = (/ 2 * 9 * 1)%R.
Proof.
  destruct (C68_neighbour_output tsort0 c68_cfg c68_y [1; 1]%nat 1 6 0 (fun _ => []) 1 0 0 1 tsort0_ok c68_regular c68_consistent eq_refl eq_refl) as (sched & r & E1 & E2 & H).
  - intros k Hk. split; [destruct k as [|[|k]]; cbn in *; lia|]. split; [now left|]. intros i [|[|ch]] [|[|b]] Hb; try reflexivity; try lia; destruct ch, b; reflexivity.
  - exists [1%nat]. split; reflexivity.
  - intros i [|[|[|ch]]] [|[|b]] Hb; try reflexivity; lia.
  - exists sched, r. split; [exact E1|]. split; [exact E2|]. vm_compute in E1. injection E1 as <-.
    assert (OV : forall g a o, o = 1%R -> (g * a * o = g * a * 1)%R) by (intros g a o ->; reflexivity).
    split; rewrite H; (rewrite OV; [|unfold overlap, sum_updates; unfold overlap, sum_updates, placed, frame_end; cbn; rewrite !Z.div_1_r; compute_z; cbn; lra]); unfold send_gain, at3, window_corr; unfold sample; compute_z; cbn; compute_z; cbn; lra.
Qed.
(** Whole-chunk broadcasting, one broadcast per hop. *)
Definition c68_whole : ocfg :=
  mkO (mkP 2 1 1 true false false false false 0 0) (o_nodes c68_cfg)
      [1; 1]%R [/ 2; / 2]%R true false false 3 false (o_ext c68_cfg) (o_int c68_cfg) (o_loc c68_cfg) (o_est c68_cfg).
Example C68_whole_ex : exists sched r,
  initialize_events tsort0 (o_p c68_whole) (o_nodes c68_whole) (fun _ => []) = Ok (sched, []) /\
  online_run c68_whole c68_y sched (online_init 0%R c68_whole [1; 1]%nat 0 6) = Ok r /\
  exists m, nth_error (flat_events sched) m = Some (4, (0%nat, Up)).
Proof.
  destruct (C68_completes tsort0 c68_whole c68_y [1; 1]%nat 1 6 0 (fun _ => []) 1 tsort0_ok) as (sched & r & E1 & E2).
  - destruct c68_regular. constructor; try assumption; try reflexivity; try discriminate.
  - destruct c68_consistent. constructor; assumption.
  - reflexivity.
  - exists sched, r. split; [exact E1|]. split; [exact E2|]. vm_compute in E1. injection E1 as <-. exists 10%nat. reflexivity.
Qed.

Print Assumptions C68_latest_samples.
Print Assumptions C68_frames_in_runs.
Print Assumptions C68_completes.
Print Assumptions C68_aligned.
Print Assumptions C68_reference_received.
Print Assumptions C68_neighbour_output.
