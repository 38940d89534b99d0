(** Lemmas behind TiSchedProps.v: the schedule of nodes with a common clock. *)
From Verif Require Import Base BaseFacts Sched SchedSpec SchedFacts SchedFacts2 SchedFacts3 InstSpec InstFacts TreeRootFacts SchedFacts4 SchedFacts5.
From Verif Require Import Buffers Tree TreeSpec InNet InNetSpec TiSpec TiSchedSpec TiSchedFacts TiSchedFacts2.
From Verif Require TreeProps SyncFacts4.
Open Scope Z_scope.

(** hops [a], [a + 1], ..., [M - 1] *)
Definition grid (step : Z) (a M : nat) : list Z := map (fun m => Z.of_nat m * step) (seq a (M - a)).
Lemma grid_In step a M t : In t (grid step a M) <-> exists m, (a <= m < M)%nat /\ t = Z.of_nat m * step.
Proof.
  unfold grid. rewrite in_map_iff. split; intros (m & H1 & H2); exists m.
  - rewrite in_seq in H2. split; [lia|congruence]. - rewrite in_seq. split; [congruence|lia].
Qed.
Lemma grid_sorted step a M : 0 < step -> StronglySorted Z.lt (grid step a M).
Proof.
  intros H. unfold grid. generalize (M - a)%nat as l. clear M. intros l. revert a. induction l as [|l IH]; intros a; cbn [seq map]; constructor; [apply IH|].
  apply Forall_forall. intros x Hx. apply in_map_iff in Hx as (m & <- & Hm). apply in_seq in Hm. nia.
Qed.
Lemma sorted_lt_le l : StronglySorted Z.lt l -> StronglySorted Z.le l.
Proof. apply StronglySorted_impl. intros; lia. Qed.

Lemma mapM_id {A} (f : A -> res A) l : (forall x, In x l -> f x = Ok x) -> mapM f l = Ok l.
Proof.
  induction l as [|x l IH]; intros H; [reflexivity|]. cbn [mapM]. rewrite (H x) by now left. cbn [bind]. rewrite IH by (intros; apply H; now right). reflexivity.
Qed.
Lemma aligned_grid nd per T sep a : 0 < per -> 0 < sep -> period nd = per -> stamps nd = exact_clock per T -> (0 < T)%nat ->
  aligned_of nd (Z.of_nat a * sep) sep (Z.of_nat (T - 1) / sep) = Ok (grid (sep * per) a (Z.to_nat (Z.of_nat (T - 1) / sep))).
Proof.
  intros Hp Hs E1 E2 HT. unfold aligned_of, align_instants. rewrite E1, E2.
  set (M := Z.of_nat (T - 1) / sep). assert (HM : 0 <= M /\ M * sep <= Z.of_nat (T - 1)) by (unfold M; split; [apply Z.div_pos; lia|rewrite Z.mul_comm; apply Z.mul_div_le; lia]).
  assert (EA : map (fun s => s * per) (arange_samples (Z.of_nat a * sep) sep M) = grid (sep * per) a (Z.to_nat M)).
  { unfold arange_samples, grid. rewrite map_map.
    replace (Z.to_nat (Z.max 0 ((M * sep - Z.of_nat a * sep + (sep - 1)) / sep))) with (Z.to_nat M - a)%nat.
    2:{ replace (M * sep - Z.of_nat a * sep + (sep - 1)) with (sep - 1 + (M - Z.of_nat a) * sep) by ring. rewrite Z.div_add by lia. rewrite Z.div_small by lia. lia. }
    generalize (Z.to_nat M - a)%nat. intros l. replace (seq a l) with (map (Nat.add a) (seq 0 l)).
    - rewrite map_map. apply map_ext. intros i. rewrite Nat2Z.inj_add. ring.
    - clear. revert a. induction l as [|l IH]; intros a; [reflexivity|]. rewrite <- (Nat.add_0_r a) at 2. cbn [seq map]. f_equal. rewrite <- seq_shift, map_map, <- (IH (S (a + 0))).
      apply map_ext. intros; lia. }
  rewrite EA. apply mapM_id. intros x Hx. apply grid_In in Hx as (m & Hm & ->). unfold align_future.
  replace (memZ (Z.of_nat m * (sep * per)) (exact_clock per T)) with true; [reflexivity|]. symmetry. apply memZ_In. unfold exact_clock.
  apply in_map_iff. exists (Z.to_nat (Z.of_nat m * sep)). split; [rewrite Z2Nat.id by lia; ring|]. apply in_seq. nia.
Qed.
Lemma exact_num nd per T len : 0 < per -> 0 < len -> period nd = per -> stamps nd = exact_clock per T -> (0 < T)%nat ->
  num_in_total nd len = Ok (Z.of_nat (T - 1) / len).
Proof.
  intros Hp Hl E1 E2 HT. unfold num_in_total. rewrite E2, exact_clock_last by exact HT. cbn [bind]. rewrite E1. f_equal.
  rewrite (Z.mul_comm per len). apply Z.div_mul_cancel_r; lia.
Qed.
Lemma cdiv_exact k s : 0 < s -> cdiv (Z.of_nat k * s) s * s = Z.of_nat k * s.
Proof.
  intros H. unfold cdiv. replace (Z.of_nat k * s + s - 1) with (s - 1 + Z.of_nat k * s) by ring. rewrite Z.div_add, Z.div_small by lia. ring.
Qed.

Section Clock.
Variables (p : sparams) (nodes : list snode) (per : Z) (T R : nat).
Hypothesis (HC : common_clock p nodes per T R) (HU : (first_update p R < hops p T)%nat).
Notation n := (length nodes).
Notation U := (grid (p_Ns p * per) (first_update p R) (hops p T)).
Notation B := (grid (p_Ns p * per) (first_exchange p R) (hops p T)).
Lemma T_pos : (0 < T)%nat.
Proof.
  destruct T as [|T']; [|lia]. unfold hops in HU. exfalso. cbn [Nat.sub Z.of_nat] in HU. rewrite Z.div_0_l in HU by (destruct (cc_hop _ _ _ _ _ HC); lia). cbn in HU. lia.
Qed.
Lemma up_grid nd : In nd nodes -> up_of p nd = Ok U.
Proof.
  intros H. destruct (cc_nodes _ _ _ _ _ HC nd H) as [E1 E2]. destruct (cc_hop _ _ _ _ _ HC) as (H1 & H2 & H3 & H4). pose proof (cc_per _ _ _ _ _ HC) as Hp. pose proof T_pos as HT.
  unfold up_of. rewrite (exact_num nd per T) by assumption. cbn [bind]. destruct (cc_mode _ _ _ _ _ HC) as [-> _]. cbn [andb].
  replace (cdiv ((if p_whole p then 2 else 1) * p_N p) (p_Ns p) * p_Ns p) with (Z.of_nat (first_update p R) * p_Ns p).
  - apply aligned_grid; assumption.
  - rewrite H2. unfold first_update. rewrite <- (cdiv_exact _ (p_Ns p)) by lia. do 2 f_equal. destruct (p_whole p); lia.
Qed.
Lemma bc_grid up nd : In nd nodes -> bc_of p up nd = Ok B.
Proof.
  intros H. destruct (cc_nodes _ _ _ _ _ HC nd H) as [E1 E2]. destruct (cc_hop _ _ _ _ _ HC) as (H1 & H2 & H3 & H4). pose proof (cc_per _ _ _ _ _ HC) as Hp. pose proof T_pos as HT.
  unfold bc_of. rewrite H3, (exact_num nd per T) by assumption. cbn [bind]. unfold first_exchange. destruct (cc_mode _ _ _ _ _ HC) as [_ [W|W]].
  - rewrite W, H2. apply aligned_grid; assumption.
  - rewrite W. destruct (p_whole p); [rewrite H2; apply aligned_grid; assumption|].
    replace (p_Ns p) with (Z.of_nat 1 * p_Ns p) at 1 by lia. apply aligned_grid; assumption.
Qed.
Lemma mapM_const {A C} (f : A -> res C) c l : (forall x, In x l -> f x = Ok c) -> mapM f l = Ok (repeat c (length l)).
Proof.
  induction l as [|x l IH]; intros H; [reflexivity|]. cbn [mapM length repeat]. rewrite (H x) by now left. cbn [bind]. rewrite IH by (intros; apply H; now right). reflexivity.
Qed.
Lemma first_le : (1 <= first_exchange p R <= first_update p R)%nat.
Proof. destruct (cc_hop _ _ _ _ _ HC) as (H1 & H2 & H3 & H4). unfold first_exchange, first_update. destruct (p_whole p); lia. Qed.
Lemma step_pos : 0 < p_Ns p * per.
Proof. destruct (cc_hop _ _ _ _ _ HC) as (H1 & _). pose proof (cc_per _ _ _ _ _ HC). nia. Qed.
Lemma UB : incl U B.
Proof. intros t Ht. apply grid_In in Ht as (m & Hm & ->). apply grid_In. pose proof first_le. exists m. split; [lia|reflexivity]. Qed.
Lemma B_pos t : In t B -> 0 < t.
Proof. intros Ht. apply grid_In in Ht as (m & Hm & ->). pose proof first_le. pose proof step_pos. nia. Qed.
Lemma U_ne : U <> [].
Proof. intros E. assert (In (Z.of_nat (first_update p R) * (p_Ns p * per)) []) by (rewrite <- E; apply grid_In; exists (first_update p R); split; [lia|reflexivity]). contradiction. Qed.
Lemma B_ne : B <> [].
Proof. intros E. apply U_ne. destruct U as [|t l] eqn:EU; [reflexivity|]. assert (G : In t B) by (apply UB; rewrite EU; now left). rewrite E in G. destruct G. Qed.

(** what is asked of the scheduler: the same for all trees *)
Lemma prepared : exists rest tr,
  StronglySorted Z.lt (0 :: rest) /\ incl rest U /\
  mapM (mask_select (0 :: rest) (cyc (p_start p) (length (0 :: rest)) n)) (seq 0 n) = Ok tr /\
  forall ordering_of, let roots := map (fun i => (p_start p + i) mod n)%nat (seq 0 (length (0 :: rest))) in
    prep_evmat_build p nodes ordering_of = Ok (mkPrep (repeat U n) (repeat B n) (repeat B n) (repeat B n) tr (map ordering_of roots) roots).
Proof.
  pose proof (cc_start _ _ _ _ _ HC) as Hs. pose proof step_pos as Hsp.
  assert (ER : exists rest, StronglySorted Z.lt (0 :: rest) /\ incl rest U /\
     (if p_seq p && negb (p_keepTree p) then do (s, ix) <- get_sequential_update_instants (repeat U n) (p_start p); do _ <- get s 0; Ok (upd 0 0 s, ix) else Ok ([0], [p_start p]))
     = Ok (0 :: rest, cyc (p_start p) (length (0 :: rest)) n)).
  { destruct (p_seq p && negb (p_keepTree p)).
    - destruct (seq_up_full (repeat U n) (p_start p)) as (ts & ix & E & S1 & S2 & S3 & _ & S4); [now rewrite repeat_length| |].
      { intros l Hl. apply repeat_spec in Hl as ->. split; [exact U_ne|apply sorted_lt_le, grid_sorted, Hsp]. }
      rewrite repeat_length in S3.
      assert (EL : length ix = length ts).
      { apply (S4 (Z.of_nat (hops p T - 1) * (p_Ns p * per))); [pose proof first_le; nia|]. intros l Hl. apply repeat_spec in Hl as ->. split.
        - apply grid_In. exists (hops p T - 1)%nat. split; [lia|reflexivity].
        - intros u Hu. apply grid_In in Hu as (m & Hm & ->). nia. }
      rewrite E. cbn [bind]. destruct ts as [|t ts].
      + exfalso. destruct (seq_up_inv (repeat U n) (p_start p) [] ix) as (_ & _ & CE); [now rewrite repeat_length| |exact E|].
        { intros l Hl. apply repeat_spec in Hl as ->. apply sorted_lt_le, grid_sorted, Hsp. }
        destruct CE as (l & Hl & [[_ [C1 _]]|[C1 _]]).
        * apply nth_error_In in Hl. apply repeat_spec in Hl as ->. cbn in C1. apply UB, B_pos in C1. lia.
        * cbn in *. lia.
      + exists ts. split.
        { inversion S1 as [|? ? A1 A2]; subst. inversion A1; subst. inversion A2; subst. constructor; assumption. }
        split.
        { intros u Hu. apply In_nth_error in Hu as [i Hi]. destruct (S2 (S i) u Hi) as (l & Hl & EA). apply nth_error_In in Hl. apply repeat_spec in Hl as ->. apply EA. }
        cbn [get nth_error bind upd]. cbn [length] in EL. rewrite EL in S3. rewrite S3. reflexivity.
    - exists []. split; [repeat constructor|]. split; [intros u []|]. unfold cyc. cbn [length seq map]. rewrite Nat.add_0_r, Nat.mod_small by exact Hs. reflexivity. }
  destruct ER as (rest & R1 & R2 & R3). exists rest.
  destruct (mapM_total (mask_select (0 :: rest) (cyc (p_start p) (length (0 :: rest)) n)) (seq 0 n)) as [tr Etr].
  { intros k _. unfold mask_select. rewrite cyc_length, Nat.eqb_refl. eexists; reflexivity. }
  exists tr. split; [exact R1|]. split; [exact R2|]. split; [exact Etr|]. intros ordering_of. cbv zeta. unfold prep_evmat_build.
  rewrite (mapM_const (up_of p) U) by exact up_grid. cbn [bind]. rewrite (mapM_const (bc_of p (repeat U n)) B) by exact (bc_grid _). cbn [bind].
  destruct (cc_mode _ _ _ _ _ HC) as [-> _]. rewrite R3. cbn [bind]. rewrite Etr. reflexivity.
Qed.
End Clock.
