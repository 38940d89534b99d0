(** Prim's algorithm returns a minimum spanning tree. *)
From Verif Require Import Base BaseFacts Buffers BufFacts Tree TreeSpec TreeFacts Prune PruneSpec PruneFacts.
From Coq Require Import Reals Lra Sorted.
Local Open Scope nat_scope.

Definition heavier (a b : item) : Prop := (it_w a <= it_w b)%R.
Lemma push_In x l y : In y (push x l) <-> y = x \/ In y l.
Proof.
  induction l as [|z l IH]; cbn [push]; [cbn; intuition|]. destruct (before x z); cbn [In]; [intuition|]. rewrite IH. intuition.
Qed.
Lemma push_length x l : length (push x l) = S (length l).
Proof. induction l as [|z l IH]; cbn [push]; [reflexivity|]. destruct (before x z); cbn [length]; lia. Qed.
Lemma push_sorted x l : StronglySorted heavier l -> StronglySorted heavier (push x l).
Proof.
  induction 1 as [|z l S IH F]; cbn [push]; [constructor; constructor|]. unfold before. rewrite Forall_forall in F.
  destruct (Rlt_dec (it_w x) (it_w z)) as [L|L]; [|destruct (Rlt_dec (it_w z) (it_w x)) as [M|M]; [|destruct (it_c x <? it_c z)]].
  - constructor; [constructor; [exact S|now apply Forall_forall]|]. apply Forall_forall. intros y [<-|Hy]; unfold heavier in *; [lra|]. specialize (F y Hy). lra.
  - constructor; [exact IH|]. apply Forall_forall. intros y Hy. apply push_In in Hy. destruct Hy as [-> | Hy]; [unfold heavier; lra|auto].
  - constructor; [constructor; [exact S|now apply Forall_forall]|]. apply Forall_forall. intros y [<-|Hy]; unfold heavier in *; [lra|]. specialize (F y Hy). lra.
  - constructor; [exact IH|]. apply Forall_forall. intros y Hy. apply push_In in Hy. destruct Hy as [-> | Hy]; [unfold heavier; lra|auto].
Qed.

Section Prim.
  Variables (n : nat) (A : nat -> nat -> bool) (wt : nat -> nat -> R).
  Lemma adj_In u v : In v (adj n A u) <-> v < n /\ (A u v = true \/ A v u = true).
  Proof. unfold adj. rewrite filter_In, in_seq, orb_true_iff. intuition lia. Qed.
  Lemma adj_length u : length (adj n A u) <= n.
  Proof. unfold adj. etransitivity; [apply filter_length_le|]. now rewrite seq_length. Qed.

  Definition pusher u skip := fun (a : list item * nat) v => if memN v skip then a else (push (mkIt (wt u v) (snd a) u v) (fst a), S (snd a)).
  Lemma pusher_all u skip l : forall fr c, let r := fold_left (pusher u skip) l (fr, c) in
    (forall it, In it (fst r) -> In it fr \/ (it_u it = u /\ In (it_v it) l /\ it_w it = wt u (it_v it))) /\
    (forall it, In it fr -> In it (fst r)) /\
    (forall v, In v l -> ~ In v skip -> exists it, In it (fst r) /\ it_u it = u /\ it_v it = v /\ it_w it = wt u v) /\
    (StronglySorted heavier fr -> StronglySorted heavier (fst r)) /\ length (fst r) <= length fr + length l.
  Proof.
    induction l as [|w l IH]; intros fr c; cbn [fold_left].
    - cbv zeta. cbn [fst]. split; [auto|]. split; [auto|]. split; [intros ? []|]. split; [auto|]. cbn. lia.
    - cbv zeta. change (pusher u skip (fr, c) w) with (if memN w skip then (fr, c) else (push (mkIt (wt u w) c u w) fr, S c)).
      destruct (memN w skip) eqn:M.
      + apply memN_In in M. destruct (IH fr c) as (I1 & I2 & I3 & I4 & I5). split; [|split; [exact I2|split; [|split; [exact I4|cbn [length]; lia]]]].
        * intros it Hit. destruct (I1 it Hit) as [|(a & b & d)]; [now left|right]. cbn. auto.
        * intros v [<-|Hv] Hs; [contradiction|]. now apply I3.
      + destruct (IH (push (mkIt (wt u w) c u w) fr) (S c)) as (I1 & I2 & I3 & I4 & I5). split; [|split; [|split; [|split]]].
        * intros it Hit. destruct (I1 it Hit) as [H|(a & b & d)]; [|right; cbn; auto]. apply push_In in H. destruct H as [-> | H]; [right; cbn; auto|now left].
        * intros it Hit. apply I2. apply push_In. now right.
        * intros v [<-|Hv] Hs; [|now apply I3]. eexists. split; [apply I2, push_In; left; reflexivity|]. cbn. auto.
        * intros S. apply I4. now apply push_sorted.
        * rewrite push_length in I5. cbn [length]. lia.
  Qed.

  Hypothesis wt_sym : forall x y, wt x y = wt y x.
  Hypothesis wt_pos : forall x y, (0 <= wt x y)%R.
  Definition wsum (L : list (nat * nat)) : R := fold_right Rplus 0%R (map (fun e => wt (fst e) (snd e)) L).
  Lemma wsum_app l1 l2 : wsum (l1 ++ l2) = (wsum l1 + wsum l2)%R.
  Proof. unfold wsum. induction l1 as [|e l1 IH]; cbn [map app fold_right]; [lra|]. rewrite IH. lra. Qed.
  Lemma wsum_nonneg L : (0 <= wsum L)%R.
  Proof. unfold wsum. induction L as [|e L IH]; cbn [map fold_right]; [lra|]. pose proof (wt_pos (fst e) (snd e)). lra. Qed.

  Record inv (nodes V : list nat) (fr : list item) (es : list (nat * nat)) : Prop := {
    i_grown : grown es V;
    i_nodes : forall x, In x nodes \/ In x V <-> x < n;
    i_disj : forall x, In x nodes -> ~ In x V;
    i_sound : forall it, In it fr -> In (it_u it) V /\ In (it_v it) (adj n A (it_u it)) /\ it_w it = wt (it_u it) (it_v it);
    i_complete : forall x y, In x V -> In y (adj n A x) -> ~ In y V -> exists it, In it fr /\ it_u it = x /\ it_v it = y /\ it_w it = wt x y;
    i_sorted : StronglySorted heavier fr;
    i_allowed : allowed n A es }.

  Hypothesis HC : connected n A.
  Lemma allowed_adj L x y : allowed n A L -> link L x y -> In y (adj n A x) /\ x < n.
  Proof. intros H [I|I]; destruct (H _ _ I) as (a & b & d); split; try assumption; apply adj_In; tauto. Qed.

  Lemma loop_min fuel : forall nodes V fr c es, inv nodes V fr es -> length fr + n * length nodes < fuel ->
    exists c' es' V', prim_loop n A wt fuel nodes V fr c es = Ok ([], c', es') /\ grown es' V' /\ (forall x, x < n <-> In x V') /\ allowed n A es' /\
      forall L, allowed n A L -> (forall x, x < n -> joined L V x) -> (wsum es' <= wsum es + wsum L)%R.
  Proof.
    induction fuel as [|fuel IH]; intros nodes V fr c es I Hf; [lia|]. cbn [prim_loop].
    destruct nodes as [|x0 nodes].
    { exists c, es, V. split; [reflexivity|]. split; [apply (i_grown _ _ _ _ I)|]. split; [intros x; rewrite <- (i_nodes _ _ _ _ I x); cbn; tauto|]. split; [apply (i_allowed _ _ _ _ I)|].
      intros L _ _. pose proof (wsum_nonneg L). lra. }
    destruct fr as [|it fr].
    { exfalso. destruct HC as (L & HL & HJ). assert (Hx : x0 < n) by (apply (i_nodes _ _ _ _ I); left; now left).
      assert (HV : exists r, In r V). { destruct (i_grown _ _ _ _ I) as [u|E V' u v G Hu Hv]; eexists; left; reflexivity. } destruct HV as (r & Hr).
      assert (Lr : r < n) by (apply (i_nodes _ _ _ _ I); now right).
      assert (J : joined L V x0) by (apply joined_mono with [r]; [intros z [<-|[]]; exact Hr|now apply HJ]).
      destruct (joined_enters L V x0 J) as (a & b & Ha & Lab & O); [apply (i_disj _ _ _ _ I); now left|]. destruct (outside_end _ _ _ _ O) as [Nb _].
      destruct (allowed_adj _ _ _ HL Lab) as [Hadj _]. destruct (i_complete _ _ _ _ I a b Ha Hadj Nb) as (it & [] & _). }
    set (v := it_v it) in *. destruct (memN v V || negb (memN v (x0 :: nodes))) eqn:B.
    - assert (Hv : In v V).
      { destruct (memN v V) eqn:M; [now apply memN_In|]. cbn [orb] in B. apply negb_true_iff in B. apply memN_notIn in B.
        destruct (i_sound _ _ _ _ I it (or_introl eq_refl)) as (_ & Hadj & _). apply adj_In in Hadj. destruct (proj2 (i_nodes _ _ _ _ I (it_v it)) (proj1 Hadj)); [contradiction|assumption]. }
      apply IH; [|cbn [length] in Hf |- *; lia]. destruct I as [I1 I2 I3 I4 I5 I6 I7]. constructor; try assumption.
      + intros it' H. apply I4. now right.
      + intros x y Hx Hy Ny. destruct (I5 x y Hx Hy Ny) as (it' & [<-|Hit] & E1 & E2 & E3); [|eauto 6]. exfalso. apply Ny. rewrite <- E2. exact Hv.
      + now inversion I6.
    - apply orb_false_iff in B. destruct B as [B1 B2]. apply memN_notIn in B1. apply negb_false_iff in B2. apply memN_In in B2.
      destruct (i_sound _ _ _ _ I it (or_introl eq_refl)) as (Hu & Hadj & Hw). fold v in Hadj, Hw.
      set (r := push_all n A wt v (v :: V) fr c). destruct (pusher_all v (v :: V) (adj n A v) fr c) as (P1 & P2 & P3 & P4 & P5).
      change (fold_left (pusher v (v :: V)) (adj n A v) (fr, c)) with r in P1, P2, P3, P4, P5.
      assert (Vn : v < n) by (apply adj_In in Hadj; tauto). assert (Un : it_u it < n) by (apply (i_nodes _ _ _ _ I); now right).
      assert (I' : inv (remove Nat.eq_dec v (x0 :: nodes)) (v :: V) (fst r) ((it_u it, v) :: es)).
      { destruct I as [I1 I2 I3 I4 I5 I6 I7]. constructor.
        - now constructor.
        - intros x. rewrite <- I2. split; [intros [H|[<-|H]]; [apply in_remove in H; tauto|tauto|tauto]|]. intros [H|H]; [|right; now right].
          destruct (Nat.eq_dec x v) as [->|Hne]; [right; now left|left; now apply in_in_remove].
        - intros x H. apply in_remove in H. destruct H as [H Hne]. intros [<-|H']; [congruence|exact (I3 x H H')].
        - intros it' H. destruct (P1 it' H) as [H'|(E1 & E2 & E3)].
          + destruct (I4 it' (or_intror H')) as (a & b & d). split; [now right|auto].
          + rewrite E1. split; [now left|auto].
        - intros x y [<-|Hx] Hy Ny; [now apply P3|]. destruct (I5 x y Hx Hy) as (it' & [<-|Hit] & E1 & E2 & E3); [intros H; apply Ny; now right| |eauto 6].
          exfalso. apply Ny. left. exact E2.
        - apply P4. now inversion I6.
        - intros x y [E|H]; [|now apply I7]. injection E as <- <-. apply adj_In in Hadj. tauto. }
      assert (M : length (fst r) + n * length (remove Nat.eq_dec v (x0 :: nodes)) < fuel).
      { pose proof (remove_length_lt Nat.eq_dec (x0 :: nodes) v B2) as RL. pose proof (adj_length v) as AL. cbn [length] in Hf, RL.
        assert (n * length (remove Nat.eq_dec v (x0 :: nodes)) + n <= n * S (length nodes)) by nia. lia. }
      destruct (IH _ _ _ (snd r) _ I' M) as (c' & es' & V' & E & G & HV & HA & HM). exists c', es', V'. split; [exact E|]. split; [exact G|]. split; [exact HV|]. split; [exact HA|].
      intros L HL HJ. destruct (exchange L V v (fun x => x < n) HJ Vn B1) as (l1 & f & l2 & a & b & -> & Ef & Ha & Nb & HJ').
      assert (HL' : allowed n A (l1 ++ l2)) by (intros x y H; apply HL; apply in_app_iff in H; apply in_app_iff; cbn; tauto).
      specialize (HM (l1 ++ l2) HL' HJ').
      assert (Lab : link (l1 ++ f :: l2) a b) by (destruct Ef as [-> | -> ]; [left|right]; apply in_app_iff; right; now left).
      destruct (allowed_adj _ _ _ HL Lab) as [Hab _]. destruct (i_complete _ _ _ _ I a b Ha Hab Nb) as (it' & Hit & E1 & E2 & E3).
      assert (W : (it_w it <= it_w it')%R).
      { destruct Hit as [<-|Hit]; [lra|]. pose proof (i_sorted _ _ _ _ I) as S. inversion S as [|? ? S1 S2]; subst. rewrite Forall_forall in S2. now apply S2. }
      assert (Wf : wt (fst f) (snd f) = wt a b) by (destruct Ef as [-> | -> ]; cbn [fst snd]; auto).
      rewrite wsum_app in HM |- *. change (wsum (f :: l2)) with (wt (fst f) (snd f) + wsum l2)%R. change (wsum ((it_u it, v) :: es)) with (wt (it_u it) v + wsum es)%R in HM. rewrite Wf. lra.
  Qed.

  Lemma spanning order : Permutation order (seq 0 n) -> 0 < n ->
    exists es V, spanning_edges n A wt order = Ok es /\ grown es V /\ (forall x, x < n <-> In x V) /\ allowed n A es /\
      forall L, allowed n A L -> connects n L -> (wsum es <= wsum L)%R.
  Proof.
    intros HP Hn. assert (HI : forall x, In x order <-> x < n) by (intros x; split; intros H; [apply (Permutation_in _ HP) in H; apply in_seq in H; lia|apply (Permutation_in _ (Permutation_sym HP)); apply in_seq; lia]).
    assert (ND : NoDup order) by (apply (Permutation_NoDup (Permutation_sym HP)), seq_NoDup). assert (HL : length order = n) by (rewrite (Permutation_length HP); apply seq_length).
    destruct order as [|u rest]; [cbn in HL; lia|]. unfold spanning_edges. cbn [length prim_outer].
    set (r := push_all n A wt u [] [] 0). destruct (pusher_all u [] (adj n A u) [] 0) as (P1 & P2 & P3 & P4 & P5).
    change (fold_left (pusher u []) (adj n A u) ([], 0)) with r in P1, P2, P3, P4, P5. apply NoDup_cons_iff in ND. destruct ND as [N1 N2].
    assert (Hu : u < n) by (apply HI; now left).
    assert (I : inv rest [u] (fst r) []).
    { constructor.
      - constructor.
      - intros x. rewrite <- HI. cbn. tauto.
      - intros x Hx [<-|[]]. contradiction.
      - intros it H. destruct (P1 it H) as [[]|(E1 & E2 & E3)]. rewrite E1. split; [now left|auto].
      - intros x y [<-|[]] Hy _. apply P3; [exact Hy|intros []].
      - apply P4. constructor.
      - intros x y []. }
    pose proof (adj_length u) as AL. cbn [length] in P5.
    destruct (loop_min (S (S n * n)) rest [u] (fst r) (snd r) [] I) as (c' & es & V & E & G & HV & HA & HM); [cbn [length] in *; nia|].
    rewrite E. cbn [bind]. exists es, V. split; [destruct (length rest); reflexivity|]. split; [exact G|]. split; [exact HV|]. split; [exact HA|].
    intros L HL' HJ. replace (wsum L) with (wsum [] + wsum L)%R by (change (wsum []) with 0%R; lra). apply HM; [exact HL'|]. intros x Hx. now apply HJ.
  Qed.
End Prim.
