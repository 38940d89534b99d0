(** Lemmas behind BufProps.v. *)
From Verif Require Import Base BaseFacts Sched SchedSpec InstSpec InstFacts SchedFacts5 Buffers BufSpec BufFacts
  SyncFacts SyncFacts2 SyncFacts3 SyncFacts4.
Open Scope Z_scope.

Lemma two_node_net : symmetric_net [[1%nat]; [0%nat]].
Proof.
  split.
  - intros [|[|[|k]]] l H; simpl in H; try discriminate; injection H as <-;
    (split; [repeat constructor; intros []|]; split; [intros [?|[]]; lia | intros q [<-|[]]; simpl; lia]).
  - intros [|[|[|k]]] [|[|[|q]]] lk lq H1 H2; simpl in *; try discriminate; injection H1 as <-; injection H2 as <-; simpl; lia.
Qed.

Lemma star_net : symmetric_net [[2; 1]; [0]; [0]]%nat.
Proof.
  split.
  - intros [|[|[|[|k]]]] l H; simpl in H; try discriminate; injection H as <-;
    (split; [repeat constructor; simpl; lia|]; split; simpl; lia).
  - intros [|[|[|[|k]]]] [|[|[|[|q]]]] lk lq H1 H2; simpl in *; try discriminate; injection H1 as <-; injection H2 as <-; simpl; lia.
Qed.

Lemma sync_few A (zero : A) tsort p nodes ordering_of compress per Nt :
  is_argsort tsort -> good_params p -> p_whole p = false -> p_ti p = false ->
  (p_Ns p | p_N p) -> (p_L p | p_Ns p) -> p_L p < Z.of_nat Nt ->
  synchronous per Nt nodes -> symmetric_net (map nbrs nodes) ->
  (forall k t n, 0 <= n -> Z.of_nat (length (compress k t n)) = n) ->
  exists sched, initialize_events tsort p nodes ordering_of = Ok (sched, []) /\
    (forall t k, scheduled sched t k Up <-> (k < length nodes)%nat /\
       exists i, t = (p_N p + Z.of_nat i * p_Ns p) * per /\
                 p_N p + Z.of_nat i * p_Ns p < Z.of_nat (Nt - 1) / p_Ns p * p_Ns p) /\
    (forall pre t k post, events_of sched = pre ++ (t, (k, Up)) :: post ->
       exists st, run_events zero p nodes compress pre (init_state A nodes) = Ok st /\
         forall idx q b, link (map nbrs nodes) k idx q -> buffer_at (b_buf st) k idx b ->
           Z.of_nat (length b) = if Nat.eqb (event_count k Up pre) 0 then p_N p else p_Ns p) /\
    exists st, run_schedule zero p nodes compress sched (init_state A nodes) = Ok st /\
      forall k nd, nth_error nodes k = Some nd ->
        flag_rows k (b_log st) = repeat (repeat 0 (length (nbrs nd))) (event_count k Up (events_of sched)).
Proof.
  intros Hs Hg Hw Hti H1 H2 HL Hsy Hnet Hc.
  assert (HR : forall d u, rows_expected d (p_N p) (p_N p) u = repeat (repeat 0 d) u).
  { intros d [|u]; [reflexivity|]. simpl. rewrite Z.sub_diag. reflexivity. }
  destruct (p_efficient p) eqn:Ee.
  - destruct (sync_efficient A zero tsort p nodes ordering_of compress per Nt Hs Hg Hw Ee Hti H1 H2 HL Hsy Hnet Hc)
      as [sched [E1 [E2 [E3 [st [E4 E5]]]]]].
    exists sched. split; [exact E1|]. split; [exact E2|]. split; [exact E3|]. exists st. split; [exact E4|].
    intros k nd Hnd. rewrite (E5 k nd Hnd). apply HR.
  - assert (HNt : (0 < Nt)%nat) by (destruct Hg as [_ [_ HL0]]; lia).
    pose proof (sync_fixed A zero tsort p nodes ordering_of compress per Nt Hs Hg ltac:(congruence) Hti (or_intror Ee) H1 H2 HNt Hsy Hnet Hc) as HX.
    rewrite Hw in HX. destruct HX as [sched [E1 [E2 [E3 [st [E4 E5]]]]]].
    exists sched. split; [exact E1|]. split; [exact E2|]. split; [exact E3|]. exists st. split; [exact E4|].
    intros k nd Hnd. rewrite (E5 k nd Hnd). apply HR.
Qed.

Lemma sync_whole A (zero : A) tsort p nodes ordering_of compress per Nt :
  is_argsort tsort -> good_params p -> p_whole p = true -> p_L p = p_Ns p -> p_ti p = false ->
  (p_Ns p | p_N p) -> (0 < Nt)%nat ->
  synchronous per Nt nodes -> symmetric_net (map nbrs nodes) ->
  (forall k t n, 0 <= n -> Z.of_nat (length (compress k t n)) = n) ->
  exists sched, initialize_events tsort p nodes ordering_of = Ok (sched, []) /\
    (forall pre t k post, events_of sched = pre ++ (t, (k, Up)) :: post ->
       exists st, run_events zero p nodes compress pre (init_state A nodes) = Ok st /\
         forall idx q b, link (map nbrs nodes) k idx q -> buffer_at (b_buf st) k idx b ->
           Z.of_nat (length b) = p_Ns p) /\
    exists st, run_schedule zero p nodes compress sched (init_state A nodes) = Ok st /\
      forall k nd, nth_error nodes k = Some nd ->
        flag_rows k (b_log st) =
        match event_count k Up (events_of sched) with
        | O => []
        | S m => repeat (p_Ns p - p_N p) (length (nbrs nd)) :: repeat (repeat 0 (length (nbrs nd))) m
        end.
Proof.
  intros Hs Hg Hw HL Hti H1 HNt Hsy Hnet Hc.
  pose proof (sync_fixed A zero tsort p nodes ordering_of compress per Nt Hs Hg (fun _ => HL) Hti (or_introl Hw) H1
    ltac:(rewrite HL; apply Z.divide_refl) HNt Hsy Hnet Hc) as HX.
  rewrite Hw in HX. destruct HX as [sched [E1 [E2 [E3 [st [E4 E5]]]]]].
  exists sched. split; [exact E1|]. split.
  - intros pre t k post E. destruct (E3 pre t k post E) as [st' [F1 F2]]. exists st'. split; [exact F1|].
    intros idx q b H3 H4. rewrite (F2 idx q b H3 H4). destruct (Nat.eqb _ _); reflexivity.
  - exists st. split; [exact E4 | exact E5].
Qed.

Lemma td_few_spec A nb k (z : list A) L bufs :
  symmetric_net nb -> shaped A nb bufs -> (k < length nb)%nat -> 0 < L <= Z.of_nat (length z) ->
  exists bufs', fill_buffers_td_few_samples nb k z L bufs = Ok bufs' /\ shaped A nb bufs' /\
    forall k' idx s b, link nb k' idx s -> buffer_at bufs k' idx b ->
      buffer_at bufs' k' idx (if Nat.eqb s k then b ++ skipn (length z - Z.to_nat L) z else b).
Proof.
  intros H1 H2 H3 [H4 H5]. rewrite <- py_from_neg_skipn by assumption.
  exact (fill_buffers_spec A nb k (py_from (- L) z) bufs H1 H2 H3).
Qed.

Lemma link_neighbour nb k' s ls :
  symmetric_net nb -> nth_error nb s = Some ls ->
  ((exists idx, link nb k' idx s) <-> In k' ls) /\
  forall i j, link nb k' i s -> link nb k' j s -> i = j.
Proof.
  intros Hnet Hs. split; [split|].
  - intros [idx HL]. destruct (link_sym _ _ _ _ Hnet HL) as [l [E Hin]]. congruence.
  - intros Hin. destruct Hnet as [Hw Hsym]. destruct (Hw _ _ Hs) as [_ [_ Hr]]. specialize (Hr _ Hin).
    destruct (nth_error nb k') as [l|] eqn:E; [|apply nth_error_None in E; lia].
    apply (Hsym s k' ls l Hs E) in Hin. apply In_nth_error in Hin. destruct Hin as [i Hi]. exists i, l. auto.
  - intros i j [l [E1 E2]] [l' [E3 E4]]. assert (l' = l) by congruence. subst l'.
    eapply NoDup_nth_inj; [apply (proj1 Hnet _ _ E1) | eassumption | eassumption].
Qed.

Lemma fifo A (zero : A) nb Ndft Ns h st :
  0 < Ndft -> symmetric_net nb ->
  exec zero nb Ndft Ns h (start_state A nb) = Ok st ->
  forall k idx q, link nb k idx q -> buffer_at (b_buf st) k idx (received q k h).
Proof. intros H1 H2 H3. apply (inv_buf _ _ _ _ _ _ (exec_inv A zero nb Ndft Ns h st H1 H2 H3)). Qed.

Lemma update_reads A (zero : A) nb Ndft Ns h k st :
  0 < Ndft -> symmetric_net nb ->
  exec zero nb Ndft Ns (h ++ [Read k]) (start_state A nb) = Ok st ->
  (forall k' idx q, link nb k' idx q ->
     buffer_at (b_buf st) k' idx (if Nat.eqb k' k then [] else received q k' h)) /\
  exists zk, nth_error (b_z st) k = Some zk /\
    forall idx q, link nb k idx q -> exists frame, nth_error zk idx = Some frame /\
      Z.of_nat (length frame) = Ndft /\
      (Z.of_nat (length (received q k h)) <= Ndft -> exists old, frame = old ++ received q k h) /\
      (Ndft < Z.of_nat (length (received q k h)) -> exists lost, received q k h = lost ++ frame).
Proof.
  intros HN Hnet H. unfold exec in H. rewrite foldM_app in H. destruct (bind_ok _ _ _ H) as [st1 [H1 H2]].
  cbn [foldM exec_op] in H2. destruct (bind_ok _ _ _ H2) as [st2 [H3 E]]. injection E as ->.
  assert (I := exec_inv A zero nb Ndft Ns h st1 HN Hnet H1).
  destruct (read_step A zero nb Ndft Ns h st1 k st HN Hnet I H3) as [I' [lk [zk [row [Hk [Hz [Hlog HC]]]]]]].
  split.
  - intros k' idx q HL. pose proof (inv_buf _ _ _ _ _ _ I' k' idx q HL) as HB. rewrite received_snoc in HB.
    rewrite Nat.eqb_sym. exact HB.
  - exists zk. split; [exact Hz|]. intros idx q HL. destruct (HC idx q HL) as [frame [flag [F1 [F2 [F3 [F4 [F5 F6]]]]]]].
    exists frame. split; [exact F1|]. split; [exact F3|]. split.
    + intros Hle. destruct (F5 Hle) as [old [E _]]. exists old. exact E.
    + intros Hlt. destruct (F6 Hlt) as [_ ->]. eexists. symmetry. apply firstn_skipn.
Qed.

Lemma assemble_iff A (zero : A) first Ndft Ns prev buf :
  0 < Ndft -> (first = false -> Z.of_nat (length prev) = Ndft) ->
  ((exists r, assemble zero first Ndft Ns prev buf = Ok r) <->
   (first = true \/ Z.of_nat (length buf) <= Ndft)).
Proof.
  intros HN Hp. split.
  - intros [r Hr]. destruct first; [left; reflexivity|]. right.
    destruct (Z_le_gt_dec (Z.of_nat (length buf)) Ndft); [assumption|].
    rewrite (assemble_fails A zero false Ndft Ns prev buf HN) in Hr by (lia || reflexivity). discriminate.
  - intros Hb. apply assemble_ok; [exact HN | | exact Hb]. intros E. left. auto.
Qed.

Lemma flags_account A (zero : A) nb Ndft Ns h st k idx q :
  0 < Ndft -> symmetric_net nb ->
  exec zero nb Ndft Ns h (start_state A nb) = Ok st ->
  link nb k idx q -> reads k h <> 0%nat ->
  sumZ (map (fun row => nth idx row 0) (flag_rows k (b_log st))) =
    Z.of_nat (length (sent q h)) - Z.of_nat (length (received q k h))
    - Ndft - Ns * (Z.of_nat (reads k h) - 1).
Proof.
  intros HN Hnet H HL Hr. pose proof (inv_log _ _ _ _ _ _ (exec_inv A zero nb Ndft Ns h st HN Hnet H) k idx q HL Hr) as HX.
  unfold flags_at in HX. unfold flag_rows. rewrite map_map. exact HX.
Qed.

Lemma efficient_size_mult L ts last t :
  0 < L -> 0 <= efficient_size L ts last t /\ (L | efficient_size L ts last t).
Proof.
  intros HL. unfold efficient_size. split; [apply Z.mul_nonneg_nonneg; [lia | apply Z.div_pos; lia] | apply Z.divide_factor_l].
Qed.

Lemma efficient_size_bound L ts last t :
  0 < L ->
  efficient_size L ts last t <= Z.of_nat (length (filter (fun u => (last <? u) && (u <=? t)) ts))
    < efficient_size L ts last t + L.
Proof.
  intros HL. unfold efficient_size. set (c := Z.of_nat _).
  pose proof (Z.mul_div_le c L HL). pose proof (Z.mul_succ_div_gt c L HL). lia.
Qed.

Lemma efficient_total per Nt L (ms : list Z) :
  0 < per -> 0 < L -> StronglySorted Z.lt (0 :: ms) -> (forall m, In m ms -> m * L < Z.of_nat Nt) ->
  sumZ (broadcast_sizes L (exact_clock per Nt) 0 (map (fun m => m * L * per) ms)) = last ms 0 * L.
Proof.
  intros Hper HL Hs Hm.
  assert (G : forall a, 0 <= a -> StronglySorted Z.lt (a :: ms) ->
    sumZ (broadcast_sizes L (exact_clock per Nt) (a * L * per) (map (fun m => m * L * per) ms)) = (last ms a - a) * L).
  { clear Hs. induction ms as [|m ms IH]; intros a Ha Hsa; [simpl; lia|].
    inversion Hsa as [|? ? Hs' HF]; subst. inversion HF as [|? ? Ham _]; subst.
    cbn [map broadcast_sizes sumZ fold_right]. fold (sumZ (broadcast_sizes L (exact_clock per Nt) (m * L * per) (map (fun m => m * L * per) ms))).
    rewrite efficient_size_elapsed by (try assumption; try lia; apply Hm; left; reflexivity).
    rewrite IH; [|intros x Hx; apply Hm; right; exact Hx | lia | exact Hs'].
    rewrite last_cons. ring. }
  rewrite <- (Z.mul_0_l per) at 1. rewrite <- (Z.mul_0_l L) at 1. rewrite (G 0 ltac:(lia) Hs). ring.
Qed.
