(** Orientation of a tree in terms of paths; the leaf-to-root ordering. *)
From Verif Require Import Base BaseFacts Buffers BufFacts CentrFacts Sched SchedSpec Tree TreeSpec TreeFacts.
From Coq Require Import Permutation.
Open Scope nat_scope.

Lemma concat_rev_perm {A} (l : list (list A)) : Permutation (concat (rev l)) (concat l).
Proof.
  induction l as [|x l IH]; simpl; [constructor|]. rewrite concat_app. simpl. rewrite app_nil_r.
  rewrite Permutation_app_comm. apply Permutation_app_head. exact IH.
Qed.

Lemma below_concat nbrs r par d : concat (map (level_at nbrs r par) (seq 0 d)) = below nbrs r par d.
Proof. unfold below. rewrite flat_map_concat_map. reflexivity. Qed.

Lemma below_NoDup n nbrs r par dep d : rooted n nbrs r par dep -> NoDup (below nbrs r par d).
Proof.
  intros T. induction d as [|d IH]; [constructor|]. rewrite below_S. apply NoDup_app; [exact IH | eapply level_NoDup; exact T|].
  intros x Hx Hy. apply (below_In n nbrs r par dep T) in Hx. apply (level_In n nbrs r par dep T) in Hy. lia.
Qed.

Lemma below_all n nbrs r par dep m : rooted n nbrs r par dep -> (forall k, k < n -> dep k <= m) ->
  Permutation (below nbrs r par (S m)) (seq 0 n).
Proof.
  intros T H. apply NoDup_Permutation; [eapply below_NoDup; exact T | apply seq_NoDup|].
  intros x. rewrite (below_In n nbrs r par dep T), in_seq. split; [lia|]. intros Hx. specialize (H x ltac:(lia)). lia.
Qed.

Lemma rev_levels_nth (f : nat -> list nat) m j : j <= m -> nth_error (rev (map f (seq 0 (S m)))) j = Some (f (m - j)).
Proof.
  intros Hj. rewrite <- map_rev, nth_error_map.
  assert (H : nth_error (rev (seq 0 (S m))) j = Some (m - j)).
  { clear f. revert m Hj. induction j as [|j IH]; intros m Hj; rewrite seq_S, rev_app_distr; cbn [rev app nth_error Nat.add].
    - f_equal. lia. - destruct m as [|m]; [lia|]. rewrite IH by lia. reflexivity. }
  rewrite H. reflexivity.
Qed.

Lemma unique_distance n nbrs r k d d' : is_tree n nbrs -> k < n -> r < n -> distance nbrs r k d -> distance nbrs r k d' -> d = d'.
Proof.
  intros T Hk Hr [p [N [W L]]] [p' [N' [W' L']]].
  assert (p = p') by (apply (t_unique _ _ T k r); assumption). subst p'. lia.
Qed.
Lemma unique_hop n nbrs r k q q' : is_tree n nbrs -> k < n -> r < n -> next_hop nbrs r k q -> next_hop nbrs r k q' -> q = q'.
Proof.
  intros T Hk Hr [p [N W]] [p' [N' W']].
  assert (E : k :: q :: p = k :: q' :: p') by (apply (t_unique _ _ T k r); assumption). congruence.
Qed.

(** Everything about the orientation of a tree. *)
Lemma orientation n nbrs r : is_tree n nbrs -> r < n ->
  exists st par dep m,
    rooted n nbrs r par dep /\
    (forall k, k < n -> k <> r -> next_hop nbrs r k (par k)) /\ (forall k, k < n -> distance nbrs r k (dep k)) /\
    orientate nbrs r = Ok (st, rev (map (level_at nbrs r par) (seq 0 (S m)))) /\
    (forall d, d <= m -> level_at nbrs r par d <> []) /\
    (forall k, k < n -> dep k <= m) /\ length (o_up st) = n /\ length (o_down st) = n /\
    forall k, k < n -> nth k (o_up st) [] = children nbrs r par k /\ nth k (o_down st) [] = if Nat.eqb k r then [] else [par k].
Proof.
  intros T Hr. destruct (tree_rooted n nbrs r T Hr) as [par [dep [R [H1 H2]]]].
  destruct (orientate_ok n nbrs r par dep R) as [st [m [E [_ [HL [HD [U [D H]]]]]]]].
  exists st, par, dep, m. repeat (split; [assumption|]). exact H.
Qed.

Lemma orientation_spec n nbrs r : is_tree n nbrs -> r < n ->
  exists st o, orientate nbrs r = Ok (st, o) /\ length (o_up st) = n /\ length (o_down st) = n /\
    nth r (o_down st) [] = [] /\ nth r (o_up st) [] = nth r nbrs [] /\
    forall k, k < n -> k <> r -> exists q, next_hop nbrs r k q /\ nth k (o_down st) [] = [q] /\
      NoDup (nth k (o_up st) []) /\ (forall x, In x (nth k (o_up st) []) <-> In x (nth k nbrs []) /\ x <> q).
Proof.
  intros T Hr. destruct (orientation n nbrs r T Hr) as (st & par & dep & m & R & HN & _ & E & _ & _ & U & D & H).
  exists st, (rev (map (level_at nbrs r par) (seq 0 (S m)))). do 3 (split; [assumption|]).
  destruct (H r Hr) as [Hu Hd]. rewrite Nat.eqb_refl in Hd. unfold children in Hu. rewrite Nat.eqb_refl in Hu.
  split; [exact Hd|]. split; [exact Hu|]. intros k Hk Hne. exists (par k). destruct (H k Hk) as [Hu' Hd'].
  destruct (Nat.eqb_spec k r); [contradiction|]. split; [apply HN; assumption|]. split; [exact Hd'|]. rewrite Hu'. split.
  - eapply children_NoDup; eassumption.
  - intros x. unfold children. destruct (Nat.eqb_spec k r); [contradiction|]. rewrite filter_In.
    destruct (Nat.eqb_spec x (par k)); split; intros [A B]; split; auto; try discriminate; congruence.
Qed.

Lemma ordering_spec n nbrs r st o : is_tree n nbrs -> r < n -> orientate nbrs r = Ok (st, o) ->
  full_ordering n o /\
  (exists o', o = o' ++ [[r]]) /\
  (forall l, In l o -> l <> []) /\
  (forall k j, at_level o k j -> distance nbrs r k (length o - 1 - j)) /\
  (forall k j q i, at_level o k j -> In q (nth k (o_down st) []) -> at_level o q i -> j < i).
Proof.
  intros T Hr Ho. destruct (orientation n nbrs r T Hr) as (st' & par & dep & m & R & HN & HD & E & HL & Hm & U & D & H).
  rewrite Ho in E.
  assert (Eo : o = rev (map (level_at nbrs r par) (seq 0 (S m)))) by congruence. assert (st' = st) by congruence. subst st'.
  assert (HA : forall k j, at_level o k j -> k < n /\ j <= m /\ dep k = m - j).
  { intros k j [lvl [H1 H2]].
    assert (Hj : j < length o) by (apply nth_error_Some; congruence). rewrite Eo, rev_length, map_length, seq_length in Hj.
    rewrite Eo, rev_levels_nth in H1 by lia. injection H1 as <-. apply (level_In n nbrs r par dep R) in H2. lia. }
  split; [|split; [|split; [|split]]].
  - unfold full_ordering. rewrite Eo. rewrite concat_rev_perm, below_concat. eapply below_all; eauto.
  - rewrite Eo. cbn [seq map rev]. exists (rev (map (level_at nbrs r par) (seq 1 m))). reflexivity.
  - intros l Hl. rewrite Eo in Hl. apply in_rev, in_map_iff in Hl. destruct Hl as [d [<- Hd]]. apply in_seq in Hd. apply HL. lia.
  - intros k j Hk. destruct (HA k j Hk) as [A [B C]]. rewrite Eo, rev_length, map_length, seq_length.
    replace (S m - 1 - j) with (dep k) by lia. apply HD. exact A.
  - intros k j q i Hk Hq Hi. destruct (HA k j Hk) as [A [B C]]. destruct (HA q i Hi) as [A' [B' C']].
    destruct (H k A) as [_ Hd]. rewrite Hd in Hq. destruct (Nat.eqb_spec k r) as [|Hne]; [destruct Hq|]. destruct Hq as [<-|[]].
    destruct (r_par _ _ _ _ _ R k A Hne) as [_ [Hdk _]]. lia.
Qed.
