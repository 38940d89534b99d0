(** C91: the centralised estimates of sampling-rate offsets. *)
From Verif Require Import Base BaseFacts Buffers BufFacts Centr Level Cx CxFacts ChunkSpec SroComp SroSpec SroFacts CohDrift CohSpec CohFacts CohFacts2 CohFacts3 CohFacts4 CohFacts5 CohFacts6 CohProps CohCentr CohCentrSpec CohCentrFacts.
From Verif Require OutFacts3.
From Coq Require Import Reals Lra.
Local Open Scope R_scope.

(** Runs complete, whatever the flags. *)
Theorem C91_runs_complete c L Ns K nsens k l : centr_setting c Ns K nsens k l -> exists st, cc_run c L Ns (2 * (K - 1)) nsens k l = Ok st.
Proof. intros S. destruct (run_total c L Ns K nsens k (cset_node _ _ _ _ _ _ S) (cset_bins _ _ _ _ _ _ S) (cset_every _ _ _ _ _ _ S) (cset_start _ _ _ _ _ _ S) l (cset_frames _ _ _ _ _ _ S)) as (st & E & _). eauto. Qed.

Lemma total_of c L Ns K nsens k l st : centr_setting c Ns K nsens k l -> cc_run c L Ns (2 * (K - 1)) nsens k l = Ok st -> total c Ns K nsens k l st.
Proof.
  intros S E. destruct (run_total c L Ns K nsens k (cset_node _ _ _ _ _ _ S) (cset_bins _ _ _ _ _ _ S) (cset_every _ _ _ _ _ _ S) (cset_start _ _ _ _ _ _ S) l (cset_frames _ _ _ _ _ _ S)) as (st' & E' & T).
  now replace st with st' by congruence.
Qed.
Lemma est_of c Ns K nsens k l st q i : total c Ns K nsens k l st -> (q < length nsens)%nat -> (i < length l)%nat -> estimate_of st q i = from_residual c (residual_of st q i).
Proof.
  intros T Hq Hi. unfold estimate_of, residual_of. apply (est_nth c st l); [apply T|apply T|exact Hi|]. pose proof (tt_res _ _ _ _ _ _ _ T) as F. rewrite Forall_forall in F.
  destruct (F _ (nth_In (cs_res st) [] (Nat.lt_le_trans _ _ _ Hi (Nat.eq_le_incl _ _ (eq_sym (tt_nres _ _ _ _ _ _ _ T)))))) as (H & _). rewrite H. exact Hq.
Qed.

(** A node estimates no offset between its own clock and itself. *)
Theorem C91_own c L Ns K nsens k l st i : centr_setting c Ns K nsens k l -> cc_run c L Ns (2 * (K - 1)) nsens k l = Ok st -> (i < length l)%nat ->
  residual_of st k i = 0 /\ estimate_of st k i = 0.
Proof.
  intros S E Hi. pose proof (total_of _ _ _ _ _ _ _ _ S E) as T. assert (R : residual_of st k i = 0).
  { pose proof (tt_res _ _ _ _ _ _ _ T) as F. rewrite Forall_forall in F. apply F, nth_In. rewrite (tt_nres _ _ _ _ _ _ _ T). exact Hi. }
  split; [exact R|]. rewrite (est_of c Ns K nsens k l) by (assumption || apply S). rewrite R. apply from_0.
Qed.

(** The estimates for the other nodes are those that the node would obtain if each of them
    sent it the signal of its first sensor. *)
Theorem C91_as_neighbours c L Ns K nsens k l : centr_setting c Ns K nsens k l -> flags_harmless c nsens l ->
  exists stc st, cc_run c L Ns (2 * (K - 1)) nsens k l = Ok stc /\ cd_run c L Ns (2 * (K - 1)) 1 (length nsens - 1) (map (seen nsens k) l) = Ok st /\
    forall j i, (j < length nsens - 1)%nat -> (i < length l)%nat -> residual_of stc (other k j) i = residual_of st j i /\ estimate_of stc (other k j) i = estimate_of st j i.
Proof.
  intros S F. destruct (run_rel c L Ns K nsens k (cset_node _ _ _ _ _ _ S) (cset_sensors _ _ _ _ _ _ S) (cset_bins _ _ _ _ _ _ S) (cset_every _ _ _ _ _ _ S) (cset_start _ _ _ _ _ _ S) l (cset_frames _ _ _ _ _ _ S)) as (stc & st & Ec & Ed & HS & HR).
  { destruct F as [F|[F|(m & F)]]; [now left|right..].
    - eapply Forall_impl; [|exact F]. intros x. apply placed_none.
    - apply Forall_forall. intros x _. apply (placed_equal nsens k (cset_node _ _ _ _ _ _ S) (cset_sensors _ _ _ _ _ _ S) x m F). }
  exists stc, st. split; [exact Ec|split; [exact Ed|]]. intros j i Hj Hi. pose proof (total_of _ _ _ _ _ _ _ _ S Ec) as T.
  assert (R : residual_of stc (other k j) i = residual_of st j i) by (apply (rc_res _ _ _ _ _ _ _ _ HR i Hi); exact Hj). split; [exact R|].
  rewrite (est_of c Ns K nsens k l) by (try assumption; apply other_lt; assumption || apply S). rewrite R. symmetry.
  eapply estimate_residual; [exact HS|exact Hj|rewrite map_length; exact Hi].
Qed.

Lemma seen_setting c Ns K nsens k l : centr_setting c Ns K nsens k l -> setting c Ns K 1 (length nsens - 1) (map (seen nsens k) l).
Proof. intros S. constructor; try (now apply S); [lia|]. apply seen_wf. apply S. Qed.
Lemma seen_upto nsens k l j i : (j < length nsens - 1)%nat -> (i < length l)%nat -> flags_upto (map (seen nsens k) l) j i = flags_upto l (other k j) i.
Proof. intros Hj Hi. unfold flags_upto. apply sumR_ext'. intros t Ht. f_equal. apply seen_flag_at; [exact Hj|lia]. Qed.
Lemma seen_drifting Ns K nsens k l j g eps : Forall (wf_centr_frame K nsens) l -> (j < length nsens - 1)%nat -> drifting_node Ns K nsens k (other k j) l g eps -> drifting Ns K 1 (map (seen nsens k) l) j g eps.
Proof.
  intros W Hj D i b Hi Hb. rewrite map_length in Hi. destruct (D i b Hi Hb) as (D1 & D2 & D3). rewrite Forall_forall in W. destruct (W _ (nth_In l ([], []) Hi)) as (_ & W2 & _).
  destruct (seen_entry nsens k (spectra_at l i) b ltac:(unfold spectra_at; rewrite W2; exact Hb)) as (S0 & S1). rewrite seen_spectra, S0, (S1 j Hj), (seen_upto nsens k l j i Hj Hi). repeat split; assumption.
Qed.

(** Open loop: the offset of a drifting node is found at every instant, with the gain of
    the method, as for a neighbour (C71_open_loop). *)
Theorem C91_open_loop c L Ns K nsens k l st q g eps : centr_setting c Ns K nsens k l -> cd_closed c = false -> (q < length nsens)%nat -> q <> k -> drifting_node Ns K nsens k q l g eps ->
  cc_run c L Ns (2 * (K - 1)) nsens k l = Ok st -> -1 < eps * (INR (cd_seg c) * Ns) < 1 ->
  L = 1%Z \/ (forall i, (0 < i < length l)%nat -> flag_at l q i = 0%Z) ->
  forall i, (i < length l)%nat ->
    (instant c i -> residual_of st q i = gain K c * eps /\ estimate_of st q i = gain K c * eps / (1 + gain K c * eps)) /\
    (~ instant c i -> estimate_of st q i = 0).
Proof.
  intros S Hc Hq Hqk D E He HL i Hi. destruct (C91_as_neighbours c L Ns K nsens k l S (or_introl Hc)) as (stc & st' & Ec & Ed & H). assert (stc = st) by congruence. subst stc.
  destruct (other_inv nsens k (cset_node _ _ _ _ _ _ S) q Hq Hqk) as (j & Hj & ->). destruct (H j i Hj Hi) as (-> & ->).
  apply (C71_open_loop c L Ns K 1 (length nsens - 1) (map (seen nsens k) l) st' j g eps (seen_setting _ _ _ _ _ _ S) Hc Hj); [apply seen_drifting; [apply S|exact Hj|exact D]|exact Ed|exact He| |rewrite map_length; exact Hi].
  destruct HL as [HL|HL]; [now left|right]. rewrite map_length. intros t Ht. rewrite seen_flag_at by (exact Hj || lia). now apply HL.
Qed.

(** Closed loop, default step: at most 6 percent of the offset is ever estimated. *)
Theorem C91_closed_loop_refuted c L Ns K nsens k l st q g eps : centr_setting c Ns K nsens k l -> cd_closed c = true -> flags_harmless c nsens l -> (q < length nsens)%nat -> q <> k -> drifting_node Ns K nsens k q l g eps ->
  cc_run c L Ns (2 * (K - 1)) nsens k l = Ok st -> 0 <= eps -> eps * (INR (cd_seg c) * Ns) < 1 -> cd_eps c = 1 / 20 -> (14 <= K)%nat ->
  forall i, (i < length l)%nat -> estimate_of st q i <= 3 / 50 * eps.
Proof.
  intros S Hc F Hq Hqk D E He Hs Ha HK i Hi. destruct (C91_as_neighbours c L Ns K nsens k l S F) as (stc & st' & Ec & Ed & H). assert (stc = st) by congruence. subst stc.
  destruct (other_inv nsens k (cset_node _ _ _ _ _ _ S) q Hq Hqk) as (j & Hj & ->). destruct (H j i Hj Hi) as (_ & ->).
  apply (C71_closed_loop_refuted c L Ns K 1 (length nsens - 1) (map (seen nsens k) l) st' j g eps (seen_setting _ _ _ _ _ _ S) Hc Hj); try assumption; [apply seen_drifting; [apply S|exact Hj|exact D]|rewrite map_length; exact Hi].
Qed.

(** Without flags, all sensors of a node are shifted by the sum of the estimates for that
    node, the node's own sensors not at all. *)
Theorem C91_sensors c L Ns K nsens k l st i : centr_setting c Ns K nsens k l -> Forall (fun x => Forall (fun f => f = 0%Z) (fst x)) l ->
  cc_run c L Ns (2 * (K - 1)) nsens k l = Ok st -> (i < length l)%nat ->
  (forall b q s, (b < K)%nat -> (q < length nsens)%nat -> (s < nth q nsens 0)%nat ->
     entry (nth i (cs_cmp st) []) b (first_sensor nsens q + s) = delayed (2 * (K - 1)) b (- (Ns * sumR i (estimate_of st q))) (entry (spectra_at l i) b (first_sensor nsens q + s))) /\
  (forall b s, (b < K)%nat -> (s < nth k nsens 0)%nat -> entry (nth i (cs_cmp st) []) b (first_sensor nsens k + s) = entry (spectra_at l i) b (first_sensor nsens k + s)).
Proof.
  intros S F E Hi. pose proof (total_of _ _ _ _ _ _ _ _ S E) as T. destruct (tt_run _ _ _ _ _ _ _ T) as (outs & Eo & Eoc). destruct (total_est c Ns K nsens k l st T) as (HL & HF).
  destruct (cmp_centr Ns K nsens k (cset_node _ _ _ _ _ _ S) (cset_bins _ _ _ _ _ _ S) l (cs_est st) (cs_psf st) outs (cset_frames _ _ _ _ _ _ S) Eo HL HF) as (_ & _ & H). rewrite Eoc in H. destruct (H i Hi) as (_ & C).
  assert (A : forall b q s, (b < K)%nat -> (q < length nsens)%nat -> (s < nth q nsens 0)%nat ->
     entry (nth i (cs_cmp st) []) b (first_sensor nsens q + s) = delayed (2 * (K - 1)) b (- (Ns * sumR i (estimate_of st q))) (entry (spectra_at l i) b (first_sensor nsens q + s))).
  { intros b q s Hb Hq Hs. rewrite (C b q s Hb Hq Hs). f_equal. rewrite (shift_ext Ns _ (fun _ => 0) _ (estimate_of st q)).
    - unfold shift_at. rewrite (OutFacts3.sumR_zero (Datatypes.S i)) by reflexivity. ring.
    - intros t Ht. apply no_flags. rewrite Forall_map. rewrite Forall_forall in F. specialize (F _ (nth_In l ([], []) (Nat.le_lt_trans _ _ _ Ht Hi))). eapply Forall_impl; [|exact F]. intros f ->. reflexivity.
    - reflexivity. }
  split; [exact A|]. intros b s Hb Hs. rewrite (A b k s Hb (cset_node _ _ _ _ _ _ S) Hs).
  rewrite (OutFacts3.sumR_zero i). 2:{ intros t Ht. eapply C91_own; [exact S|exact E|lia]. }
  rewrite Rmult_0_r, Ropp_0. apply delayed_0.
Qed.

(** * Examples: two nodes with two and one sensors, [K] bins *)
Definition ex_centr (K : nat) (eps : R) (n : nat) : list (list Z * list (list cx)) :=
  map (fun i => ([0%Z; 0%Z], map (fun b => [cone; cr 2; delayed (2 * (K - 1)) b (eps * INR i) cone]) (seq 0 K))) (seq 0 n).
Lemma ex_centr_setting closed K eps n : (2 <= K)%nat -> centr_setting (ex_par closed 1 None) 1 K [2%nat; 1%nat] 0 (ex_centr K eps n).
Proof.
  intros HK. constructor; cbn; try lia; try lra; try exact Logic.I; [repeat constructor|].
  apply Forall_forall. intros x Hx. apply in_map_iff in Hx. destruct Hx as (i & <- & _). repeat split; cbn [fst snd]; [now rewrite map_length, seq_length|].
  apply Forall_forall. intros r Hr. apply in_map_iff in Hr. destruct Hr as (b & <- & _). reflexivity.
Qed.
Lemma ex_centr_nth K eps n i : (i < n)%nat -> nth i (ex_centr K eps n) ([], []) = ([0%Z; 0%Z], map (fun b => [cone; cr 2; delayed (2 * (K - 1)) b (eps * INR i) cone]) (seq 0 K)).
Proof. intros H. unfold ex_centr. now rewrite nth_map_seq0. Qed.
Lemma ex_centr_length K eps n : length (ex_centr K eps n) = n.
Proof. unfold ex_centr. now rewrite map_length, seq_length. Qed.
Lemma ex_centr_drifting K eps n : drifting_node 1 K [2%nat; 1%nat] 0 1 (ex_centr K eps n) (fun _ => cone) eps.
Proof.
  intros i b Hi Hb. rewrite ex_centr_length in Hi. unfold spectra_at. rewrite ex_centr_nth by exact Hi. cbn [snd].
  assert (N1 : cone <> czero) by (intros E; apply (f_equal re) in E; cbn in E; lra).
  assert (Z : flags_upto (ex_centr K eps n) 1 i = 0). { unfold flags_upto. apply OutFacts3.sumR_zero. intros t Ht. unfold flag_at. rewrite ex_centr_nth by lia. reflexivity. }
  rewrite Z. unfold entry. rewrite !(nth_map_seq0 (fun b => [cone; cr 2; delayed (2 * (K - 1)) b (eps * INR i) cone])) by exact Hb. cbn [nth first_sensor firstn list_sum fold_right Nat.add].
  split; [exact N1|split; [exact N1|]]. replace (eps * 1 * INR i - 0) with (eps * INR i) by ring. f_equal. ring.
Qed.
Example C91_ex_harmless closed K eps n : flags_harmless (ex_par closed 1 None) [2%nat; 1%nat] (ex_centr K eps n).
Proof. right. left. apply Forall_forall. intros x Hx. apply in_map_iff in Hx. destruct Hx as (i & <- & _). repeat constructor. Qed.
(** The first node estimates the offset of the second as in C71_ex_open. *)
Example C91_ex_open n : (2 <= n)%nat -> exists st, cc_run (ex_par false 1 None) 1 1 4 [2%nat; 1%nat] 0 (ex_centr 3 (1 / 10) n) = Ok st /\ estimate_of st 1 (n - 1) = 6 / 31 /\ estimate_of st 0 (n - 1) = 0.
Proof.
  intros Hn. pose proof (ex_centr_setting false 3 (1 / 10) n ltac:(lia)) as S. assert (HL : (n - 1 < length (ex_centr 3 (1 / 10) n))%nat) by (rewrite ex_centr_length; lia).
  destruct (C91_runs_complete _ 1 _ _ _ _ _ S) as (st & E). exists st. split; [exact E|]. split; [|eapply C91_own; [exact S|exact E|exact HL]].
  destruct (C91_open_loop _ 1 _ _ _ _ _ st 1%nat _ _ S eq_refl ltac:(cbn; lia) ltac:(lia) (ex_centr_drifting 3 (1 / 10) n) E ltac:(cbn; lra) (or_introl eq_refl) (n - 1)%nat HL) as [R _].
  destruct R as [_ ->]; [exists (n - 1)%nat; cbn; lia|]. unfold gain, ls_gain, ex_par. cbn [cd_search INR]. field.
Qed.
(** Closed loop, sixteen bins, an offset of a half: the last estimate is below 3/100. *)
Example C91_ex_closed n : (2 <= n)%nat -> exists st, cc_run (ex_par true 1 None) 1 1 30 [2%nat; 1%nat] 0 (ex_centr 16 (1 / 2) n) = Ok st /\ estimate_of st 1 (n - 1) <= 3 / 100.
Proof.
  intros Hn. pose proof (ex_centr_setting true 16 (1 / 2) n ltac:(lia)) as S. destruct (C91_runs_complete _ 1 _ _ _ _ _ S) as (st & E). exists st. split; [exact E|].
  pose proof (C91_closed_loop_refuted _ 1 _ _ _ _ _ st 1%nat _ _ S eq_refl (C91_ex_harmless _ _ _ _) ltac:(cbn; lia) ltac:(lia) (ex_centr_drifting 16 (1 / 2) n) E ltac:(lra) ltac:(cbn; lra) eq_refl ltac:(lia) (n - 1)%nat) as R.
  rewrite ex_centr_length in R. specialize (R ltac:(lia)). lra.
Qed.
(** Both sensors of the first node unchanged. *)
Example C91_ex_sensors n : (2 <= n)%nat -> exists st, cc_run (ex_par false 1 None) 1 1 4 [2%nat; 1%nat] 0 (ex_centr 3 (1 / 10) n) = Ok st /\ entry (nth (n - 1) (cs_cmp st) []) 1 1 = cr 2.
Proof.
  intros Hn. pose proof (ex_centr_setting false 3 (1 / 10) n ltac:(lia)) as S. destruct (C91_runs_complete _ 1 _ _ _ _ _ S) as (st & E). exists st. split; [exact E|].
  destruct (C91_sensors _ 1 _ _ _ _ _ st (n - 1)%nat S) as (_ & H); [|exact E|rewrite ex_centr_length; lia|].
  - destruct (C91_ex_harmless false 3 (1 / 10) n) as [X|[X|(m & X)]]; [apply Forall_forall; intros x Hx; apply in_map_iff in Hx; destruct Hx as (i & <- & _); repeat constructor|exact X|].
    cbn in X. injection X as X1 X2. lia.
  - pose proof (H 1%nat 1%nat ltac:(lia) ltac:(cbn; lia)) as R. cbn [first_sensor firstn list_sum fold_right Nat.add] in R. rewrite R. unfold spectra_at. rewrite ex_centr_nth by lia. reflexivity.
Qed.

Print Assumptions C91_runs_complete.
Print Assumptions C91_own.
Print Assumptions C91_as_neighbours.
Print Assumptions C91_open_loop.
Print Assumptions C91_closed_loop_refuted.
Print Assumptions C91_sensors.
