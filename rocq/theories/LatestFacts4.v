(** Synchronous networks: which broadcast a received sample comes from. *)
From Verif Require Import Base BaseFacts Sched SchedSpec SchedFacts SchedFacts4 SchedFacts5 InstSpec InstFacts Buffers BufSpec BufFacts SyncFacts SyncFacts2 SyncFacts3 Online OnlineSpec OutSpec OutFacts OutFacts2 OutFacts3 OutFacts4 DistSpec DistFacts2 LatestSpec LatestFacts LatestFacts2 LatestFacts3.
From Coq Require Import Reals.
Open Scope Z_scope.

(** ** The events of a synchronous network *)
Definition first_bc (p : sparams) : Z := if p_whole p then p_N p else p_L p.

Record sync_events (p : sparams) (nodes : list snode) (per : Z) (Nt : nat) (evs : list tev) : Prop := {
  se_up : forall t k, In (t, (k, Up)) evs <-> (k < length nodes)%nat /\ grid per (p_N p) (p_Ns p) (Z.of_nat (Nt - 1) / p_Ns p * p_Ns p) t;
  se_bc : forall t k, In (t, (k, Bc)) evs <-> (k < length nodes)%nat /\ grid per (first_bc p) (p_L p) (Z.of_nat (Nt - 1) / p_L p * p_L p) t;
  se_valid : forall x, In x evs -> valid_ev nodes x;
  se_sorted : StronglySorted before evs;
  se_nodup : NoDup evs
}.

Lemma sync_schedule tsort p nodes ordering_of per Nt :
  is_argsort tsort -> good_params p -> (p_whole p = true -> p_L p = p_Ns p) ->
  p_ti p = false -> (p_whole p = true \/ p_efficient p = false) ->
  (p_Ns p | p_N p) -> (0 < Nt)%nat -> synchronous per Nt nodes ->
  exists sched, initialize_events tsort p nodes ordering_of = Ok (sched, []) /\ sync_events p nodes per Nt (events_of sched).
Proof.
  intros Hsort Hgp Hwh Hti Heff HdN HNt [Hper Hsync].
  destruct Hgp as [HN [HNs HL]] eqn:Egp. clear Egp.
  assert (Hgn : forall nd, In nd nodes -> good_node nd /\ stamps nd <> []).
  { intros nd Hin. destruct (Hsync nd Hin) as [E1 E2]. fold (exact_clock per Nt) in E2. split; [split|].
    - rewrite E2. apply exact_clock_sorted; exact Hper.
    - rewrite E1. exact Hper.
    - rewrite E2. destruct Nt; [lia | discriminate]. }
  destruct (fc_run tsort p nodes ordering_of Hsort Hgp Hwh Hgn Hti Heff) as [sched [Es [S1 [S2 S3]]]].
  exists sched. split; [exact Es|]. 
  assert (Hsch : forall t k ty, In (t, (k, ty)) (events_of sched) <-> scheduled sched t k ty).
  { intros t k ty. rewrite events_of_In. unfold scheduled. split; intros [i Hi]; exists i; exact Hi. }
  destruct (events_of_sorted sched S1 (fun i Hi => proj2 (S2 i Hi))) as [HS HD].
  constructor; [| | |exact HS|exact HD].
  - intros t k. rewrite Hsch, S3. cbn [ev_first ev_sep]. rewrite cdiv_exact by assumption. split.
    + intros [_ [nd [s [Hnd Hs]]]]. destruct (Hsync nd (nth_error_In _ _ Hnd)) as [E1 E2]. split; [apply nth_error_Some; congruence|].
      apply (nominal_grid per Nt nd (p_N p) (p_Ns p) t Hper HNt HNs ltac:(lia) E1 E2). exists s. exact Hs.
    + intros [Hk Hg]. split; [left; reflexivity|]. destruct (nth_error nodes k) as [nd|] eqn:Hnd; [|apply nth_error_None in Hnd; lia].
      destruct (Hsync nd (nth_error_In _ _ Hnd)) as [E1 E2].
      apply (nominal_grid per Nt nd (p_N p) (p_Ns p) t Hper HNt HNs ltac:(lia) E1 E2) in Hg.
      destruct Hg as [s Hs]. exists nd, s. split; [reflexivity | exact Hs].
  - assert (HF : 0 <= first_bc p) by (unfold first_bc; destruct (p_whole p); lia).
    intros t k. rewrite Hsch, S3. cbn [ev_first ev_sep]. fold (first_bc p). split.
    + intros [_ [nd [s [Hnd Hs]]]]. destruct (Hsync nd (nth_error_In _ _ Hnd)) as [E1 E2]. split; [apply nth_error_Some; congruence|].
      apply (nominal_grid per Nt nd (first_bc p) (p_L p) t Hper HNt HL HF E1 E2). exists s. exact Hs.
    + intros [Hk Hg]. split; [right; reflexivity|]. destruct (nth_error nodes k) as [nd|] eqn:Hnd; [|apply nth_error_None in Hnd; lia].
      destruct (Hsync nd (nth_error_In _ _ Hnd)) as [E1 E2].
      apply (nominal_grid per Nt nd (first_bc p) (p_L p) t Hper HNt HL HF E1 E2) in Hg.
      destruct Hg as [s Hs]. exists nd, s. split; [reflexivity | exact Hs].
  - intros [t [k ty]] Hx. apply Hsch, S3 in Hx. destruct Hx as [Hty [nd [s [Hnd _]]]].
    split; [simpl; apply nth_error_Some; congruence | exact Hty].
Qed.

(** ** Broadcasts before an update *)
Definition bc_before (q : nat) (evs : list tev) (m : nat) : list nat :=
  filter (fun j => match nth_error evs j with Some te => is_bc q te | None => false end) (seq 0 m).

Lemma bc_before_events q evs m : map (fun j => nth_error evs j) (bc_before q evs m) = map Some (filter (is_bc q) (firstn m evs)).
Proof.
  induction m as [|m IH]; [reflexivity|]. unfold bc_before in *. rewrite seq_S, filter_app, map_app, IH, firstn_S_nth, filter_app, map_app. f_equal.
  cbn [Nat.add filter]. destruct (nth_error evs m) as [te|] eqn:E; cbn [filter map]; [|reflexivity].
  destruct (is_bc q te); cbn [map]; [|reflexivity]. now rewrite E.
Qed.

Lemma nth_blocks {A B} (f : A -> list B) b ms : (0 < b)%nat -> (forall x, In x ms -> length (f x) = b) ->
  length (flat_map f ms) = (length ms * b)%nat /\
  forall n d d', (n < length ms * b)%nat -> nth n (flat_map f ms) d = nth (n mod b) (f (nth (n / b) ms d')) d.
Proof.
  intros Hb. induction ms as [|x ms IH]; intros H; [split; [reflexivity|intros n d d' Hn; cbn in Hn; lia]|].
  destruct (IH (fun z Hz => H z (or_intror Hz))) as [L V]. assert (Lx := H x (or_introl eq_refl)). cbn [flat_map length]. split; [rewrite app_length, L, Lx; lia|].
  intros n d d' Hn. destruct (lt_dec n b) as [Hlt|Hge].
  - rewrite app_nth1 by lia. rewrite Nat.mod_small, Nat.div_small by exact Hlt. reflexivity.
  - rewrite app_nth2 by lia. rewrite Lx. rewrite (V (n - b)%nat d d') by lia.
    replace n with ((n - b) + 1 * b)%nat at 3 4 by lia. rewrite Nat.mod_add, Nat.div_add by lia. rewrite Nat.add_1_r. reflexivity.
Qed.
Lemma nth_latest {A} (zero : A) n l i : (i < n)%nat ->
  nth i (latest zero n l) zero = if (length l + i <? n)%nat then zero else nth (length l + i - n) l zero.
Proof.
  intros Hi. unfold latest. rewrite <- (firstn_skipn (length l) (repeat zero n ++ l)) at 1.
  assert (L : length (firstn (length l) (repeat zero n ++ l)) = length l) by (rewrite firstn_length_le; [reflexivity|rewrite app_length; lia]).
  transitivity (nth (length l + i) (repeat zero n ++ l) zero).
  - rewrite <- (firstn_skipn (length l) (repeat zero n ++ l)) at 3. rewrite (app_nth2 (firstn _ _)) by lia. rewrite L.
    replace (length l + i - length l)%nat with i by lia. f_equal. rewrite firstn_skipn. reflexivity.
  - destruct (Nat.ltb_spec (length l + i) n).
    + rewrite app_nth1 by (rewrite repeat_length; lia). apply nth_repeat.
    + rewrite app_nth2 by (rewrite repeat_length; lia). now rewrite repeat_length.
Qed.
