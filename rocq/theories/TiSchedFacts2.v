(** Lemmas behind TiSchedProps.v: the bypass marks do not depend on the order of
    simultaneous events. *)
From Verif Require Import Base BaseFacts Sched SchedSpec SchedFacts SchedFacts2 SchedFacts3 InstSpec InstFacts TreeRootFacts.
From Verif Require Import Buffers Tree TreeSpec InNet InNetSpec TiSpec TiSchedSpec TiSchedFacts.
From Verif Require SyncFacts4.
Open Scope Z_scope.

Lemma existsb_perm {A} (f : A -> bool) l l' : Permutation l l' -> existsb f l = existsb f l'.
Proof.
  intros H. apply eq_true_iff_eq. rewrite !existsb_exists. split; intros (x & H1 & H2); exists x; (split; [|exact H2]).
  - eapply Permutation_in; eauto. - eapply Permutation_in; [symmetry|]; eauto.
Qed.
Lemma forallb_perm {A} (f : A -> bool) l l' : Permutation l l' -> forallb f l = forallb f l'.
Proof.
  intros H. apply eq_true_iff_eq. rewrite !forallb_forall. split; intros G x Hx; apply G.
  - eapply Permutation_in; [symmetry|]; eauto. - eapply Permutation_in; eauto.
Qed.
Lemma combine_map_r {A C} (f : A -> C) l : combine l (map f l) = map (fun e => (e, f e)) l.
Proof. induction l; cbn; congruence. Qed.
Lemma forallb_combine {A C} (g : A * C -> bool) (f : A -> C) l : forallb g (combine l (map f l)) = forallb (fun e => g (e, f e)) l.
Proof. rewrite combine_map_r. induction l; cbn; congruence. Qed.
Definition takes_turn (isseq : bool) (n : nat) (mf lastUp nFr : Z) (e : nat * evtype) : bool :=
  is_up e && negb (nFr <? mf) && isseq && (Z.of_nat (fst e) =? (lastUp + 1) mod Z.of_nat n).
Lemma last_up_eq isseq n mf lastUp nFr evs :
  last_up_updated isseq n mf lastUp nFr evs = if existsb (takes_turn isseq n mf lastUp nFr) evs then (lastUp + 1) mod Z.of_nat n else lastUp.
Proof.
  unfold last_up_updated.
  assert (G : forall acc, fold_left (fun acc e => match snd e with
      | Up => if nFr <? mf then acc else if isseq then if Z.of_nat (fst e) =? (lastUp + 1) mod Z.of_nat n then Z.of_nat (fst e) else acc else acc
      | _ => acc end) evs acc = if existsb (takes_turn isseq n mf lastUp nFr) evs then (lastUp + 1) mod Z.of_nat n else acc).
  { induction evs as [|[k ty] evs IH]; intros acc; [reflexivity|]. cbn [fold_left existsb fst snd]. rewrite IH.
    unfold takes_turn at 2. unfold is_up. cbn [fst snd].
    destruct (existsb (takes_turn isseq n mf lastUp nFr) evs); [rewrite orb_true_r; reflexivity|]. rewrite orb_false_r.
    destruct ty; try reflexivity. cbn. destruct (nFr <? mf); [reflexivity|]. destruct isseq; [|reflexivity]. cbn.
    destruct (Z.eqb_spec (Z.of_nat k) ((lastUp + 1) mod Z.of_nat n)); congruence. }
  apply G.
Qed.
Lemma bypass_perm isseq n mf st g g' : Permutation g g' ->
  fst (bypass_step isseq n mf st g) = fst (bypass_step isseq n mf st g') /\
  exists f, snd (bypass_step isseq n mf st g) = map f g /\ snd (bypass_step isseq n mf st g') = map f g'.
Proof.
  intros H. unfold bypass_step. rewrite (existsb_perm _ _ _ H). destruct (existsb is_up g'); [|split; [reflexivity|exists (fun _ => false); auto]].
  cbv zeta. cbn [fst snd]. split; [|eexists; split; reflexivity]. rewrite !last_up_eq, (existsb_perm _ _ _ H), !forallb_combine, (forallb_perm _ _ _ H). reflexivity.
Qed.
Lemma updates_map f t evs k : updates_of (mkInst t evs (map f evs)) k = if existsb (is_up_of k) evs then Some (f (k, Up)) else None.
Proof.
  unfold updates_of. cbn [in_evs in_byp]. rewrite combine_map_r. induction evs as [|[j ty] evs IH]; [reflexivity|]. cbn [map find existsb fst].
  destruct (is_up_of k (j, ty)) eqn:E; cbn [orb option_map snd]; [|exact IH].
  unfold is_up_of in E. cbn in E. destruct ty; rewrite ?andb_false_r in E; try discriminate. rewrite andb_true_r in E. apply Nat.eqb_eq in E. congruence.
Qed.
Lemma attach_perm isseq n mf gs gs' st :
  Forall2 (fun i j => in_t i = in_t j /\ Permutation (in_evs i) (in_evs j)) (attach isseq n mf st gs) (attach isseq n mf st gs') ->
  Forall2 (fun i j => in_t i = in_t j /\ Permutation (in_evs i) (in_evs j) /\ forall k, updates_of i k = updates_of j k) (attach isseq n mf st gs) (attach isseq n mf st gs').
Proof.
  revert gs' st. induction gs as [|[t g] gs IH]; intros gs' st; destruct gs' as [|[t' g'] gs']; cbn [attach].
  - constructor.
  - destruct (bypass_step isseq n mf st g'). intros H. inversion H.
  - destruct (bypass_step isseq n mf st g). intros H. inversion H.
  - destruct (bypass_step isseq n mf st g) as [s1 b1] eqn:E1. destruct (bypass_step isseq n mf st g') as [s2 b2] eqn:E2.
    intros H. inversion H as [|? ? ? ? [H1 H2] H3]; subst. cbn [in_t in_evs] in H1, H2. subst t'.
    destruct (bypass_perm isseq n mf st g g' H2) as [P1 [f [P2 P3]]]. rewrite E1, E2 in P1. rewrite E1 in P2. rewrite E2 in P3. cbn [fst snd] in P1, P2, P3. subst.
    constructor; [|apply IH, H3]. cbn [in_t in_evs]. split; [reflexivity|]. split; [exact H2|]. intros k. rewrite !updates_map, (existsb_perm _ _ _ H2). reflexivity.
Qed.
Lemma Forall2_filter {A} (R : A -> A -> Prop) (p : A -> bool) l l' : Forall2 R l l' -> (forall x y, In x l -> In y l' -> R x y -> p x = p y) -> Forall2 R (filter p l) (filter p l').
Proof.
  induction 1 as [|x y l l' H1 H2 IH]; intros H; cbn; [constructor|]. rewrite (H x y) by (cbn; auto). destruct (p y); [constructor; [exact H1|]|]; apply IH; intros; apply H; cbn; auto.
Qed.
Lemma sorted_unique (l l' : list Z) : StronglySorted Z.lt l -> StronglySorted Z.lt l' -> (forall x, In x l <-> In x l') -> l = l'.
Proof.
  revert l'. induction l as [|x l IH]; intros [|y l'] H1 H2 H.
  - reflexivity. - destruct (proj2 (H y) (or_introl eq_refl)). - destruct (proj1 (H x) (or_introl eq_refl)).
  - inversion H1 as [|? ? A1 A2]; subst. inversion H2 as [|? ? B1 B2]; subst. rewrite Forall_forall in A2, B2.
    assert (x = y).
    { destruct (proj1 (H x) (or_introl eq_refl)) as [->|Hx]; [reflexivity|]. destruct (proj2 (H y) (or_introl eq_refl)) as [->|Hy]; [reflexivity|].
      specialize (A2 _ Hy). specialize (B2 _ Hx). lia. }
    subst y. f_equal. apply IH; [exact A1|exact B1|]. intros z. split; intros Hz.
    + destruct (proj1 (H z) (or_intror Hz)) as [->|Hz']; [specialize (A2 _ Hz); lia|exact Hz'].
    + destruct (proj2 (H z) (or_intror Hz)) as [->|Hz']; [specialize (B2 _ Hz); lia|exact Hz'].
Qed.
Lemma Forall2_of_nth {A} (R : A -> A -> Prop) l l' : length l = length l' -> (forall i x y, nth_error l i = Some x -> nth_error l' i = Some y -> R x y) -> Forall2 R l l'.
Proof.
  revert l'. induction l as [|x l IH]; intros [|y l'] HL H; try discriminate; constructor; [apply (H 0%nat); reflexivity|]. apply IH; [cbn in HL; lia|]. intros i. apply (H (S i)).
Qed.

(** Two schedules for the same instants, along different orderings. *)
Lemma same_marks n first U B rest tr os os' isseq mf tsort tsort' sched sched' :
  (0 < n)%nat -> (first < n)%nat -> StronglySorted Z.lt (0 :: rest) -> incl rest U -> incl U B -> (forall t, In t B -> 0 < t) -> B <> [] ->
  mapM (mask_select (0 :: rest) (cyc first (length (0 :: rest)) n)) (seq 0 n) = Ok tr ->
  length os = length (0 :: rest) -> length os' = length (0 :: rest) ->
  (forall o, In o os -> full_ordering n o) -> (forall o, In o os' -> full_ordering n o) ->
  is_argsort tsort -> is_argsort tsort' ->
  build_events_matrix tsort (repeat U n) (repeat B n) (repeat B n) (repeat B n) tr os isseq first mf = Ok sched ->
  build_events_matrix tsort' (repeat U n) (repeat B n) (repeat B n) (repeat B n) tr os' isseq first mf = Ok sched' ->
  Forall2 (fun i j => in_t i = in_t j /\ Permutation (in_evs i) (in_evs j) /\ forall k, updates_of i k = updates_of j k) sched sched'.
Proof.
  intros Hn Hf HS HrU HUB HB HB0 Htr Hl Hl' Hos Hos' Ht Ht' Hb Hb'.
  assert (X1 : exact_schedule true (repeat U n) (repeat B n) (repeat B n) (repeat B n) tr sched) by exact (built_exact n first U B rest tr os isseq mf Hn Hf HUB HB HB0 Htr Hl Hos tsort sched Ht Hb).
  assert (X2 : exact_schedule true (repeat U n) (repeat B n) (repeat B n) (repeat B n) tr sched') by exact (built_exact n first U B rest tr os' isseq mf Hn Hf HUB HB HB0 Htr Hl' Hos' tsort' sched' Ht' Hb').
  assert (ET : map in_t sched = map in_t sched').
  { apply sorted_unique; [apply X1|apply X2|]. intros x.
    rewrite (sched_times n first U B rest tr os isseq mf Hn Hf HrU HUB HB HB0 Htr Hl Hos tsort sched Ht Hb x).
    rewrite (sched_times n first U B rest tr os' isseq mf Hn Hf HrU HUB HB HB0 Htr Hl' Hos' tsort' sched' Ht' Hb' x). reflexivity. }
  assert (F : Forall2 (fun i j => in_t i = in_t j /\ Permutation (in_evs i) (in_evs j)) sched sched').
  { apply Forall2_of_nth; [rewrite <- (map_length in_t sched), ET; apply map_length|]. intros a i j Hi Hj.
    assert (Et : in_t i = in_t j). { assert (G : nth_error (map in_t sched) a = nth_error (map in_t sched') a) by now rewrite ET. rewrite !nth_error_map, Hi, Hj in G. cbn in G. congruence. }
    apply nth_error_In in Hi, Hj. split; [exact Et|]. apply NoDup_Permutation; [apply X1, Hi|apply X2, Hj|]. intros [k ty].
    rewrite (events_at n first U B rest tr os isseq mf Hn Hf HUB HB HB0 Htr Hl Hos tsort sched Ht Hb i k ty Hi).
    rewrite (events_at n first U B rest tr os' isseq mf Hn Hf HUB HB HB0 Htr Hl' Hos' tsort' sched' Ht' Hb' j k ty Hj). rewrite Et. reflexivity. }
  destruct (build_inv _ _ _ _ _ _ _ _ _ _ _ Ht Hb) as (? & ? & ? & ? & ? & gs & _ & _ & _ & _ & _ & _ & E1).
  destruct (build_inv _ _ _ _ _ _ _ _ _ _ _ Ht' Hb') as (? & ? & ? & ? & ? & gs' & _ & _ & _ & _ & _ & _ & E2).
  rewrite E1, E2 in F |- *. apply attach_perm, F.
Qed.
Lemma exchanges_perm i j : Permutation (in_evs i) (in_evs j) -> exchanges i = exchanges j.
Proof. apply existsb_perm. Qed.
