(** Lemmas behind SchedProps.v: instants. *)
From Verif Require Import Base BaseFacts Sched SchedSpec SchedFacts SchedFacts2 SchedFacts3 InstSpec InstFacts TreeRootFacts SchedFacts4.
Open Scope Z_scope.

Lemma seq_up_equal_lengths up start M ts ix :
  (start < length up)%nat -> 0 < M ->
  (forall l, In l up -> StronglySorted Z.le l /\ largest l M) ->
  get_sequential_update_instants up start = Ok (ts, ix) -> length ix = length ts.
Proof.
  intros Hst HM Hup H.
  destruct (seq_up_inv _ _ _ _ Hst (fun l Hl => proj1 (Hup l Hl)) H) as [Hc [_ [l [Hl HE]]]].
  destruct HE as [[E _]|[_ [E2 E3]]]; [exact E|]. exfalso.
  assert (Hll := nth_error_In _ _ Hl). destruct (Hup l Hll) as [_ [HMl _]].
  pose proof (E2 _ HMl) as HMt.
  destruct ts as [|t ts]; [simpl in HMt; lia|].
  destruct (E3 ltac:(discriminate)) as [l' [u [Hl' [Hu Hlt]]]].
  destruct (Hup l' Hl') as [_ [_ Hmax]]. specialize (Hmax _ Hu). lia.
Qed.

Lemma seq_up_full up start :
  (start < length up)%nat ->
  (forall l, In l up -> l <> [] /\ StronglySorted Z.le l) ->
  exists ts ix,
    get_sequential_update_instants up start = Ok (ts, ix) /\
    StronglySorted Z.lt (0 :: ts) /\
    (forall i t, nth_error ts i = Some t ->
       exists l, nth_error up ((start + i) mod length up)%nat = Some l /\
                 earliest_after l (last (firstn i ts) 0) t) /\
    ix = map (fun i => (start + i) mod length up)%nat (seq 0 (length ix)) /\
    (length ix = length ts \/ length ix = S (length ts)) /\
    (forall M, 0 < M -> (forall l, In l up -> largest l M) -> length ix = length ts).
Proof.
  intros Hst Hup. destruct (seq_up_spec up start Hst Hup) as [ts [ix [E [C [I X]]]]].
  exists ts, ix. split; [exact E|]. split; [eapply chain_increasing; exact C|].
  split; [intros i t Hi; apply (chain_nth _ _ _ _ _ _ C Hi)|]. split; [exact I|]. split.
  - destruct X as [l [_ [[X _]|[X _]]]]; [left; exact X | right; exact X].
  - intros M HM Hl. eapply seq_up_equal_lengths; [exact Hst | exact HM | | exact E].
    intros l Hl'. split; [apply Hup; exact Hl' | apply Hl; exact Hl'].
Qed.

Lemma nth_error_seq0 n i : nth_error (seq 0 n) i = if (i <? n)%nat then Some i else None.
Proof.
  destruct (Nat.ltb_spec i n) as [L|L].
  - rewrite (nth_error_nth' _ 0%nat) by (rewrite seq_length; exact L). rewrite seq_nth by exact L. reflexivity.
  - apply nth_error_None. rewrite seq_length. exact L.
Qed.

Lemma arange_progression s0 sep stop : 0 < sep -> progression s0 sep (stop * sep) (arange_samples s0 sep stop).
Proof.
  intros Hsep i s. unfold arange_samples. rewrite nth_error_map, nth_error_seq0.
  set (q := (stop * sep - s0 + (sep - 1)) / sep).
  assert (Hq : sep * q <= stop * sep - s0 + (sep - 1) < sep * q + sep).
  { unfold q. pose proof (Z.mul_div_le (stop * sep - s0 + (sep - 1)) sep Hsep).
    pose proof (Z.mul_succ_div_gt (stop * sep - s0 + (sep - 1)) sep Hsep). lia. }
  destruct (Nat.ltb_spec i (Z.to_nat (Z.max 0 q))) as [L|L]; simpl.
  - assert (Z.of_nat i + 1 <= q) by lia. split.
    + intros E; inversion E; subst. split; [reflexivity | nia].
    + intros [-> _]; reflexivity.
  - split; [discriminate|]. intros [-> Hlt]. exfalso. assert (q <= Z.of_nat i) by lia. nia.
Qed.

Lemma aligned_of_full nd s0 sep n :
  StronglySorted Z.lt (stamps nd) -> stamps nd <> [] -> 0 < sep ->
  exists noms l,
    progression s0 sep (n * sep) noms /\ aligned_of nd s0 sep n = Ok l /\
    Forall2 (fun s t => In t (stamps nd) /\
      ((exists u, In u (stamps nd) /\ s * period nd <= u) -> next_sample (stamps nd) (s * period nd) t) /\
      ((forall u, In u (stamps nd) -> u < s * period nd) -> largest (stamps nd) t)) noms l.
Proof.
  intros Hs Hne Hsep. exists (arange_samples s0 sep n).
  destruct (mapM_total (align_future (stamps nd)) (map (fun s => s * period nd) (arange_samples s0 sep n))) as [l Hl].
  { intros x _. destruct (align_future_spec (stamps nd) x Hs Hne) as [r [Hr _]]. eauto. }
  exists l. split; [apply arange_progression; exact Hsep|]. split; [exact Hl|].
  rewrite mapM_map in Hl. apply mapM_ok in Hl. revert Hl. apply Forall2_impl.
  intros s t E. destruct (align_future_spec (stamps nd) (s * period nd) Hs Hne) as [r [Hr [H1 [H2 H3]]]].
  assert (r = t) by congruence. subst r. auto.
Qed.

Lemma efficient_bc_full nd L up :
  StronglySorted Z.lt (stamps nd) -> (0 < L < length (stamps nd))%nat ->
  (forall q, In q (nbrs nd) -> (q < length up)%nat) ->
  exists u l,
    efficient_bc nd L up = Ok l /\
    StronglySorted Z.lt u /\
    (forall x, In x u <-> exists q lq, In q (nbrs nd) /\ nth_error up q = Some lq /\ In x lq) /\
    Forall2 (fun x t => block_instant L (stamps nd) t /\
      ((exists b, block_instant L (stamps nd) b /\ b <= x) ->
         t <= x /\ forall b, block_instant L (stamps nd) b -> b <= x -> b <= t) /\
      ((forall b, block_instant L (stamps nd) b -> x < b) ->
         forall b, block_instant L (stamps nd) b -> t <= b)) u l.
Proof.
  intros Hs [HL Hlen] Hq. unfold efficient_bc.
  destruct (mapM_total (get up) (nbrs nd)) as [ls Hls].
  { intros q Hin. apply get_lt. apply Hq; exact Hin. }
  assert (Hu : exists u, union_up up (nbrs nd) = Ok u) by (unfold union_up; rewrite Hls; eexists; reflexivity).
  destruct Hu as [u Hu]. rewrite Hu. cbn [bind]. destruct (union_up_spec _ _ _ Hu) as [Hus Huin].
  set (poss := step_slice L (stamps nd)).
  assert (Hps : StronglySorted Z.lt poss) by (apply step_slice_sorted; assumption).
  assert (Hpn : poss <> []).
  { assert (Hx : exists x, nth_error (stamps nd) (L * 1) = Some x).
    { destruct (nth_error (stamps nd) (L * 1)) eqn:E; [eauto|]. apply nth_error_None in E. lia. }
    destruct Hx as [x Hx]. rewrite <- step_slice_nth in Hx by exact HL. fold poss in Hx. destruct poss; [discriminate | congruence]. }
  assert (HB : forall t, In t poss <-> block_instant L (stamps nd) t) by (intros t; apply step_slice_In; exact HL).
  destruct (mapM_total (align_past poss) u) as [l Hl].
  { intros x _. destruct (align_past_spec poss x Hps Hpn) as [r [Hr _]]. eauto. }
  exists u, l. split; [exact Hl|]. split; [exact Hus|]. split; [exact Huin|].
  apply mapM_ok in Hl. revert Hl. apply Forall2_impl. intros x t E.
  destruct (align_past_spec poss x Hps Hpn) as [r [Hr [H1 [H2 H3]]]].
  assert (r = t) by congruence. subst r. split; [apply HB; exact H1|]. split.
  - intros [b [Hb Hbx]]. destruct H2 as [_ [P2 P3]]; [exists b; split; [apply HB; exact Hb | exact Hbx]|].
    split; [exact P2|]. intros b' Hb' Hx'. apply P3; [apply HB; exact Hb' | exact Hx'].
  - intros Hall b Hb. apply H3; [|apply HB; exact Hb]. intros b' Hb'. apply Hall, HB, Hb'.
Qed.

(** iterations *)
Lemma exact_clock_last p Nt : (0 < Nt)%nat -> py_get (exact_clock p Nt) (-1) = Ok (Z.of_nat (Nt - 1) * p).
Proof.
  intros H. destruct Nt as [|n]; [lia|].
  assert (E : exact_clock p (S n) = exact_clock p n ++ [Z.of_nat n * p]) by (unfold exact_clock; rewrite seq_S, map_app; reflexivity).
  rewrite E. destruct (py_get_last (exact_clock p n ++ [Z.of_nat n * p])) as [x [Hx [l' El]]].
  { destruct (exact_clock p n); discriminate. }
  apply app_inj_tail in El. destruct El as [_ <-]. rewrite Hx. do 2 f_equal. lia.
Qed.

Lemma iterations_suffice p nd Nt l :
  good_params p -> 0 < period nd -> (0 < Nt)%nat -> stamps nd = exact_clock (period nd) Nt ->
  up_of p nd = Ok l ->
  Z.of_nat (length l) <= Z.max 0 (alloc_iters (Z.of_nat Nt) (p_N p) (p_Ns p)).
Proof.
  intros [HN [HNs _]] Hp Ht Hst H. unfold up_of in H. destruct (bind_ok _ _ _ H) as [n [Hn H1]]. clear H.
  unfold num_in_total in Hn. rewrite Hst, (exact_clock_last _ _ Ht) in Hn. cbn [bind] in Hn.
  assert (En : n = Z.of_nat (Nt - 1) / p_Ns p).
  { injection Hn as <-. rewrite (Z.mul_comm (period nd)). apply Z.div_mul_cancel_r; lia. }
  apply mapM_length in H1. rewrite map_length in H1. rewrite H1.
  set (mult := if p_ti p && p_whole p then 2 else 1) in *.
  assert (Hmult : 1 <= mult) by (unfold mult; destruct (p_ti p && p_whole p); lia).
  set (c := cdiv (mult * p_N p) (p_Ns p)) in *.
  assert (Hc : p_N p <= c * p_Ns p).
  { unfold c, cdiv. pose proof (Z.mul_succ_div_gt (mult * p_N p + p_Ns p - 1) (p_Ns p) HNs). nia. }
  unfold arange_samples. rewrite map_length, seq_length.
  replace ((n * p_Ns p - c * p_Ns p + (p_Ns p - 1)) / p_Ns p) with (n - c).
  2:{ replace (n * p_Ns p - c * p_Ns p + (p_Ns p - 1)) with ((n - c) * p_Ns p + (p_Ns p - 1)) by ring.
      rewrite Z.div_add_l by lia. rewrite (Z.div_small (p_Ns p - 1)) by lia. lia. }
  rewrite Z2Nat.id by lia. unfold alloc_iters.
  assert (Hnn : n * p_Ns p <= Z.of_nat Nt - 1).
  { rewrite En. pose proof (Z.mul_div_le (Z.of_nat (Nt - 1)) (p_Ns p) HNs). lia. }
  destruct (Z_le_gt_dec n c) as [L|L]; [lia|].
  assert (0 <= Z.of_nat Nt - p_N p) by nia.
  rewrite Z.quot_div_nonneg by lia.
  assert (n - c <= (Z.of_nat Nt - p_N p) / p_Ns p) by (apply Z.div_le_lower_bound; nia). lia.
Qed.

(** whole runs of the scheduler on a fully connected network *)
Lemma Forall2_In_r {A B} (P : A -> B -> Prop) l l' y : Forall2 P l l' -> In y l' -> exists x, In x l /\ P x y.
Proof.
  intros H. induction H as [|a b l l' Hab Hl IH]; intros Hin; [destruct Hin|].
  destruct Hin as [<-|Hin]; [exists a; split; [left; reflexivity | exact Hab]|].
  destruct (IH Hin) as [x [H1 H2]]. exists x. split; [right; exact H1 | exact H2].
Qed.
Lemma Forall2_In_l2 {A B} (P : A -> B -> Prop) l l' x : Forall2 P l l' -> In x l -> exists y, In y l' /\ P x y.
Proof.
  intros H. induction H as [|a b l l' Hab Hl IH]; intros Hin; [destruct Hin|].
  destruct Hin as [<-|Hin]; [exists b; split; [left; reflexivity | exact Hab]|].
  destruct (IH Hin) as [y [H1 H2]]. exists y. split; [right; exact H1 | exact H2].
Qed.

Lemma last_largest ts x : StronglySorted Z.lt ts -> py_get ts (-1) = Ok x -> largest ts x.
Proof.
  intros Hs Hx. destruct (py_get_last_in _ _ Hx) as [l' E]. subst ts. split; [apply in_or_app; right; left; reflexivity|].
  intros u Hu. apply in_app_or in Hu. destruct Hu as [Hu|[<-|[]]]; [|lia].
  destruct (In_nth_error _ _ Hu) as [i Hi].
  assert (Hil : (i < length l')%nat) by (apply nth_error_Some; congruence).
  assert (u < x); [|lia].
  apply (StronglySorted_nth _ _ i (length l') u x Hs); [exact Hil | |].
  - rewrite nth_error_app1 by exact Hil. exact Hi.
  - rewrite nth_error_app2 by lia. rewrite Nat.sub_diag. reflexivity.
Qed.

Lemma largest_unique ts x y : largest ts x -> largest ts y -> x = y.
Proof. intros [A B] [C D]. specialize (B _ C). specialize (D _ A). lia. Qed.

Lemma next_sample_unique ts x a b : next_sample ts x a -> next_sample ts x b -> a = b.
Proof. intros [A [B C]] [D [E F]]. specialize (C _ D E). specialize (F _ A B). lia. Qed.

Lemma aligned_all nd s0 sep :
  good_node nd -> stamps nd <> [] -> 0 < sep ->
  exists n l, num_in_total nd sep = Ok n /\ aligned_of nd s0 sep n = Ok l /\
    forall t, In t l <-> exists s, nominal_event nd s0 sep s /\ next_sample (stamps nd) (s * period nd) t.
Proof.
  intros Hg Hne Hsep. destruct (py_get_last (stamps nd) Hne) as [x [Hx _]].
  exists (x / (period nd * sep)). destruct Hg as [Hs Hp].
  destruct (aligned_of_full nd s0 sep (x / (period nd * sep)) Hs Hne Hsep) as [noms [l [HP [Hl HF]]]].
  assert (Hlg := last_largest _ _ Hs Hx).
  exists l. split; [unfold num_in_total; rewrite Hx; reflexivity|]. split; [exact Hl|].
  assert (Hb : x / (period nd * sep) * sep * period nd <= x).
  { pose proof (Z.mul_div_le x (period nd * sep) ltac:(nia)). nia. }
  intros t. split.
  - intros Ht. destruct (Forall2_In_r _ _ _ _ HF Ht) as [s [Hin [_ [Hnx _]]]].
    apply In_nth_error in Hin. destruct Hin as [i Hi]. apply HP in Hi. destruct Hi as [Hi1 Hi2].
    exists s. split; [exists i, x; split; [exact Hi1 | split; [exact Hlg | exact Hi2]]|].
    apply Hnx. exists x. split; [apply Hlg | nia].
  - intros [s [[i [x' [E1 [Hx' E2]]]] Hnx]]. assert (x' = x) by (eapply largest_unique; eassumption). subst x'.
    assert (Hi : nth_error noms i = Some s) by (apply HP; split; assumption).
    destruct (Forall2_In_l2 _ _ _ _ HF (nth_error_In _ _ Hi)) as [y [Hy [_ [Hn2 _]]]].
    assert (y = t) by (eapply next_sample_unique; [apply Hn2; exists x; split; [apply Hlg | nia] | exact Hnx]).
    subst y. exact Hy.
Qed.

Lemma fc_run tsort p nodes ordering_of :
  is_argsort tsort -> good_params p -> (p_whole p = true -> p_L p = p_Ns p) ->
  (forall nd, In nd nodes -> good_node nd /\ stamps nd <> []) ->
  p_ti p = false -> (p_whole p = true \/ p_efficient p = false) ->
  exists sched, initialize_events tsort p nodes ordering_of = Ok (sched, []) /\
    StronglySorted Z.lt (map in_t sched) /\
    (forall i, In i sched -> in_evs i <> [] /\ NoDup (in_evs i) /\ StronglySorted fc_before (in_evs i)) /\
    forall t k ty, scheduled sched t k ty <->
      (ty = Up \/ ty = Bc) /\
      exists nd s, nth_error nodes k = Some nd /\ nominal_event nd (ev_first p ty) (ev_sep p ty) s /\
                   next_sample (stamps nd) (s * period nd) t.
Proof.
  intros Hsort [HN [HNs HL]] HLW Hnodes Hti Heff.
  assert (Hupof : forall nd, In nd nodes -> exists l, up_of p nd = Ok l /\
    forall t, In t l <-> exists s, nominal_event nd (ev_first p Up) (ev_sep p Up) s /\ next_sample (stamps nd) (s * period nd) t).
  { intros nd Hin. destruct (Hnodes _ Hin) as [Hg Hne].
    destruct (aligned_all nd (ev_first p Up) (p_Ns p) Hg Hne HNs) as [n [l [E1 [E2 E3]]]].
    exists l. split; [|exact E3]. unfold up_of. rewrite E1. cbn [bind]. rewrite Hti. cbn [andb].
    rewrite Z.mul_1_l. exact E2. }
  destruct (mapM_total (up_of p) nodes) as [up Hup]. { intros nd Hin. destruct (Hupof nd Hin) as [l [E _]]. eauto. }
  assert (Hbcof : forall nd, In nd nodes -> exists l, bc_of p up nd = Ok l /\
    forall t, In t l <-> exists s, nominal_event nd (ev_first p Bc) (ev_sep p Bc) s /\ next_sample (stamps nd) (s * period nd) t).
  { intros nd Hin. destruct (Hnodes _ Hin) as [Hg Hne].
    destruct (aligned_all nd (ev_first p Bc) (p_L p) Hg Hne HL) as [n [l [E1 [E2 E3]]]].
    exists l. split; [|exact E3]. unfold bc_of. rewrite E1. cbn [bind]. cbn [ev_first] in E2.
    destruct (p_whole p) eqn:Ew; [rewrite <- (HLW eq_refl); exact E2|].
    destruct Heff as [Heff|Heff]; [discriminate|]. rewrite Heff. exact E2. }
  destruct (mapM_total (bc_of p up) nodes) as [bc Hbc]. { intros nd Hin. destruct (Hbcof nd Hin) as [l [E _]]. eauto. }
  assert (Hlu := mapM_length _ _ _ Hup). assert (Hlb := mapM_length _ _ _ Hbc).
  set (em := map (fun _ : snode => @nil Z) nodes).
  assert (Htm : ~ tree_mode up em).
  { intros [_ [l [Hl Hn]]]. apply in_map_iff in Hl. destruct Hl as [nd [<- _]]. congruence. }
  destruct (exact_fc tsort up bc em em em [] (p_seq p) (p_start p) (p_every p) Hsort Htm ltac:(lia)) as [s [Es [X1 [X2 X3]]]].
  exists s. split; [|split; [exact X1|split]].
  - unfold initialize_events, prep_evmat_build. rewrite Hup. cbn [bind]. rewrite Hbc. cbn [bind]. rewrite Hti. cbn [bind].
    cbn [pr_up pr_bc pr_fu pr_re pr_tr pr_orderings pr_trees]. fold em. rewrite Es. reflexivity.
  - intros i Hi. destruct (X2 i Hi) as [Y1 [Y2 _]]. split; [exact Y1|]. split; [exact Y2|].
    eapply fc_order_in_schedule; [exact Hsort | exact Htm | exact Es | exact Hi].
  - intros t k ty. rewrite X3. unfold requested. cbn [ev_node ev_type ev_t].
    assert (HLup : listed up k t <-> exists nd s0, nth_error nodes k = Some nd /\ nominal_event nd (ev_first p Up) (ev_sep p Up) s0 /\ next_sample (stamps nd) (s0 * period nd) t).
    { split.
      - intros [l [Hl Hin]]. destruct (mapM_nth_inv _ _ _ _ _ Hup Hl) as [nd [Hnd Hu]].
        destruct (Hupof nd (nth_error_In _ _ Hnd)) as [l' [E HI]]. assert (l' = l) by congruence. subst l'.
        apply HI in Hin. destruct Hin as [s0 HH]. exists nd, s0. split; [exact Hnd | exact HH].
      - intros [nd [s0 [Hnd HH]]]. destruct (mapM_nth _ _ _ _ _ Hup Hnd) as [l [Hl Hu]].
        destruct (Hupof nd (nth_error_In _ _ Hnd)) as [l' [E HI]]. assert (l' = l) by congruence. subst l'.
        exists l. split; [exact Hl|]. apply HI. eauto. }
    assert (HLbc : listed bc k t <-> exists nd s0, nth_error nodes k = Some nd /\ nominal_event nd (ev_first p Bc) (ev_sep p Bc) s0 /\ next_sample (stamps nd) (s0 * period nd) t).
    { split.
      - intros [l [Hl Hin]]. destruct (mapM_nth_inv _ _ _ _ _ Hbc Hl) as [nd [Hnd Hu]].
        destruct (Hbcof nd (nth_error_In _ _ Hnd)) as [l' [E HI]]. assert (l' = l) by congruence. subst l'.
        apply HI in Hin. destruct Hin as [s0 HH]. exists nd, s0. split; [exact Hnd | exact HH].
      - intros [nd [s0 [Hnd HH]]]. destruct (mapM_nth _ _ _ _ _ Hbc Hnd) as [l [Hl Hu]].
        destruct (Hbcof nd (nth_error_In _ _ Hnd)) as [l' [E HI]]. assert (l' = l) by congruence. subst l'.
        exists l. split; [exact Hl|]. apply HI. eauto. }
    split.
    + intros [_ Hm]. destruct ty; try (destruct Hm; discriminate).
      * split; [right; reflexivity | apply HLbc; exact Hm].
      * split; [left; reflexivity | apply HLup; exact Hm].
    + intros [[->| ->] Hm].
      * apply HLup in Hm. split; [|exact Hm]. destruct Hm as [l [Hl _]]. apply nth_error_Some; congruence.
      * apply HLbc in Hm. split; [|exact Hm]. destruct Hm as [l [Hl _]].
        assert (k < length bc)%nat by (apply nth_error_Some; congruence). lia.
Qed.

Lemma missing_dropped evs o k ty :
  ~ In k (concat o) -> ~ In (k, ty) (sort_simultaneous_events evs true o).
Proof.
  intros Hn Hin. unfold sort_simultaneous_events in Hin.
  assert (HC : forall es o', (forall x, In x (concat o') -> In x (concat o)) -> ~ In (k, ty) (compile_indices es o')).
  { intros es o' Ho' H. unfold compile_indices in H. apply in_flat_map in H. destruct H as [lvl [Hl H]].
    apply in_flat_map in H. destruct H as [k' [Hk' H]]. apply filter_In in H. destruct H as [_ E].
    apply Nat.eqb_eq in E. simpl in E. subst k'. apply isort_by_In in Hk'. apply Hn, Ho', in_concat. eauto. }
  apply in_app_or in Hin. destruct Hin as [Hin|Hin]; apply in_flat_map in Hin; destruct Hin as [key [_ Hin]]; revert Hin; apply HC.
  - auto.
  - intros x Hx. apply in_concat in Hx. destruct Hx as [l [Hl Hx]]. apply in_rev in Hl. apply in_concat. eauto.
Qed.
