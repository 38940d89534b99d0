(** Frames received in runs. *)
From Verif Require Import Base BaseFacts Sched SchedSpec Buffers BufSpec BufFacts SyncFacts Online OnlineSpec OutSpec OutFacts OutFacts2 OutFacts3 DistSpec DistFacts2 LatestSpec LatestFacts LatestFacts2.
From Coq Require Import Reals.
Open Scope Z_scope.

Lemma firstn_S_nth {A} (l : list A) m : firstn (S m) l = firstn m l ++ match nth_error l m with Some x => [x] | None => [] end.
Proof.
  revert m; induction l as [|a l IH]; intros [|m]; try reflexivity. exact (f_equal (cons a) (IH m)).
Qed.
Lemma reached_S c y sched st m : reached c y sched st (S m) =
  bind (reached c y sched st m) (fun s => match nth_error (flat_events sched) m with Some te => online_event c y s te | None => Ok s end).
Proof.
  unfold reached. rewrite firstn_S_nth, foldM_app. destruct (foldM _ (firstn m _) st) as [s|e]; [|reflexivity]. cbn [bind].
  destruct (nth_error _ m); [|reflexivity]. cbn [foldM]. destruct (online_event c y s p); reflexivity.
Qed.
Lemma reached_pre c y sched st m m' s : (m' <= m)%nat -> reached c y sched st m = Ok s -> exists s', reached c y sched st m' = Ok s'.
Proof.
  intros H. revert s. induction H as [|m H IH]; intros s E; [eauto|]. rewrite reached_S in E. apply bind_ok in E. destruct E as (s1 & E & _). eauto.
Qed.
Lemma run_reached c y sched st r m : online_run c y sched st = Ok r -> exists s, reached c y sched st m = Ok s.
Proof.
  intros H. unfold online_run in H. unfold reached. rewrite <- (firstn_skipn m (flat_events sched)), foldM_app in H.
  apply bind_ok in H. destruct H as (s & H & _). eauto.
Qed.
Lemma run_is_reached c y sched st : reached c y sched st (length (flat_events sched)) = online_run c y sched st.
Proof. unfold reached, online_run. now rewrite firstn_all. Qed.

Lemma samples_sent_S c y sched st q m : samples_sent c y sched st q (S m) = samples_sent c y sched st q m ++
  match nth_error (flat_events sched) m with
  | Some te => if is_bc q te then match reached c y sched st (S m) with Ok s => block c q s | Err _ => [] end else []
  | None => [] end.
Proof. unfold samples_sent. replace (seq 0 (S m)) with (seq 0 m ++ [m]) by (rewrite seq_S; reflexivity). rewrite flat_map_app. cbn [flat_map]. now rewrite app_nil_r. Qed.

Lemma updates_S k evs m : length (updates_of k (firstn (S m) evs)) =
  (length (updates_of k (firstn m evs)) + match nth_error evs m with Some te => if is_update k te then 1 else 0 | None => 0 end)%nat.
Proof.
  rewrite firstn_S_nth, updates_app, app_length. f_equal. destruct (nth_error evs m); [|reflexivity]. cbn. destruct (is_update k p); reflexivity.
Qed.

Section Run.
  Variables (c : ocfg) (y : list (list (list R))) (sched : list instant) (nsens : list nat) (ref T : nat).
  Let p := o_p c.
  Let nb := map nbrs (o_nodes c).
  Let st0 : ostate R := online_init 0%R c nsens ref T.
  Hypothesis HNs : 0 <= p_Ns p.

  Lemma zl_length m s : reached c y sched st0 m = Ok s -> length (os_zl s) = length (o_nodes c).
  Proof. intros E. unfold reached in E. rewrite (run_zl c y _ _ _ E). unfold st0. cbn. apply map_length. Qed.

  Lemma as_history m : forall s, reached c y sched st0 m = Ok s ->
    exists h, exec 0%R nb (p_N p) (p_Ns p) h (start_state R nb) = Ok (set_last R (os_b s) (map (fun _ => 0) nb)) /\
      (forall q, sent q h = samples_sent c y sched st0 q m) /\
      (forall k, reads k h = length (updates_of k (firstn m (flat_events sched)))).
  Proof.
    induction m as [|m IH]; intros s E.
    - cbn in E. injection E as <-. exists []. split; [|split; reflexivity]. unfold exec, st0, online_init, init_state, start_state, set_last, nb. cbn. rewrite !map_map. reflexivity.
    - pose proof E as E'. rewrite reached_S in E. apply bind_ok in E. destruct E as (s1 & E1 & E).
      destruct (IH s1 E1) as (h & H1 & H2 & H3). setoid_rewrite samples_sent_S. setoid_rewrite updates_S. rewrite E'.
      destruct (nth_error (flat_events sched) m) as [te|].
      + destruct (event_op c y HNs te s1 s) as (o & l & O1 & _ & O3 & O4 & _); [rewrite (zl_length m s1 E1); lia|exact E|].
        exists (h ++ [o]). split; [|split].
        * unfold exec in *. rewrite foldM_app, H1. cbn [bind foldM]. unfold nb, p in *. rewrite O1. reflexivity.
        * intros q. unfold sent in *. rewrite flat_map_app, H2, O3. reflexivity.
        * intros k. unfold reads in *. rewrite filter_app, app_length, H3, O4. reflexivity.
      + injection E as <-. exists h. split; [exact H1|]. split; intros; [rewrite app_nil_r; apply H2|rewrite Nat.add_0_r; apply H3].
  Qed.

  Lemma frame_received m t k s idx q : 0 < p_N p -> symmetric_net nb -> link nb k idx q ->
    nth_error (flat_events sched) m = Some (t, (k, Up)) -> reached c y sched st0 (S m) = Ok s ->
    received_frame s k idx = latest 0%R (Z.to_nat (p_N p)) (samples_sent c y sched st0 q m).
  Proof.
    intros HN Hnet HL Hm E. destruct (as_history (S m) s E) as (h & H1 & H2 & H3).
    assert (U : is_update k (t, (k, Up)) = true) by (unfold is_update; cbn; apply Nat.eqb_refl).
    assert (B : is_bc q (t, (k, Up)) = false) by reflexivity.
    (* the history ends with a read of node k *)
    assert (RR : reached c y sched st0 (S m) = Ok s) by exact E. rewrite reached_S in RR. apply bind_ok in RR. destruct RR as (s1 & E1 & RR). rewrite Hm in RR.
    destruct (as_history m s1 E1) as (h1 & G1 & G2 & G3).
    assert (X : exec_op 0%R nb (p_N p) (p_Ns p) (set_last R (os_b s1) (map (fun _ => 0) nb)) (Read k) = Ok (set_last R (os_b s) (map (fun _ => 0) nb))).
    { destruct (event_op c y HNs (t, (k, Up)) s1 s) as (o & l & O1 & _ & O3 & O4 & _); [rewrite (zl_length m s1 E1); lia|exact RR|].
      destruct o as [a ch|a].
      - specialize (O4 k). rewrite U in O4. discriminate O4.
      - specialize (O4 k). rewrite U in O4. unfold reads in O4. cbn in O4. destruct (Nat.eqb_spec a k) as [->|]; [|discriminate O4]. apply O1. }
    assert (EX : exec 0%R nb (p_N p) (p_Ns p) (h1 ++ [Read k]) (start_state R nb) = Ok (set_last R (os_b s) (map (fun _ => 0) nb))).
    { unfold exec in *. rewrite foldM_app, G1. cbn [bind foldM]. rewrite X. reflexivity. }
    destruct (latest_inv R 0%R nb (p_N p) (p_Ns p) HN Hnet (h1 ++ [Read k]) _ EX k idx q HL) as (zk & frame & Y & Z1 & Z2 & Z3 & Z4).
    { rewrite reads_snoc. rewrite Nat.eqb_refl. lia. }
    cbn [set_last b_z] in Z1. unfold received_frame. rewrite (nth_error_nth _ _ [] Z1), (nth_error_nth _ _ [] Z2).
    rewrite received_snoc, Nat.eqb_refl, sent_snoc, !app_nil_r, G2 in Z4.
    unfold latest. rewrite Z4. assert (L := f_equal (@length R) Z4). rewrite !app_length, repeat_length in L.
    replace (length (samples_sent c y sched st0 q m)) with (length Y + 0)%nat by lia. rewrite skipn_app, Nat.add_0_r, skipn_all, Nat.sub_diag. reflexivity.
  Qed.
End Run.
