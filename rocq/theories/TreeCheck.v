(** Deciding [is_tree] on concrete networks (used by the examples only). *)
From Verif Require Import Base BaseFacts Tree TreeSpec TreeFacts.
Open Scope nat_scope.

Fixpoint nodupb (l : list nat) : bool := match l with [] => true | x :: l' => negb (memN x l') && nodupb l' end.
Lemma nodupb_ok l : nodupb l = true -> NoDup l.
Proof.
  induction l as [|x l IH]; simpl; intros H; [constructor|]. apply andb_true_iff in H. destruct H as [H1 H2].
  constructor; [|auto]. apply memN_notIn. destruct (memN x l); [discriminate | reflexivity].
Qed.

Section Check.
  Variable nbrs : list (list nat).

  Fixpoint paths (fuel : nat) (vis : list nat) (u v : nat) : list (list nat) :=
    if Nat.eqb u v then [[u]]
    else match fuel with
         | O => []
         | S f => flat_map (fun y => if memN y (u :: vis) then [] else map (cons u) (paths f (u :: vis) y v)) (nth u nbrs [])
         end.

  Lemma paths_sound fuel : forall vis u v p, ~ In u vis -> In p (paths fuel vis u v) ->
    walk nbrs u v p /\ NoDup p /\ forall x, In x p -> ~ In x vis.
  Proof.
    induction fuel as [|fuel IH]; intros vis u v p Hu Hp; cbn [paths] in Hp; destruct (Nat.eqb_spec u v) as [->|Hne].
    - destruct Hp as [<-|[]]. split; [simpl; auto|]. split; [repeat constructor; intros []|]. intros x [<-|[]]. exact Hu.
    - destruct Hp.
    - destruct Hp as [<-|[]]. split; [simpl; auto|]. split; [repeat constructor; intros []|]. intros x [<-|[]]. exact Hu.
    - apply in_flat_map in Hp. destruct Hp as [y [Hy Hp]]. destruct (memN y (u :: vis)) eqn:E; [destruct Hp|].
      apply memN_notIn in E. apply in_map_iff in Hp. destruct Hp as [p' [<- Hp]]. destruct (IH _ _ _ _ E Hp) as [W [N D]].
      split; [eapply walk_step; eauto|]. split.
      + constructor; [|exact N]. intros Hc. apply (D u Hc). left; reflexivity.
      + intros x [<-|Hx]; [exact Hu|]. intros Hc. apply (D x Hx). right; exact Hc.
  Qed.

  Lemma walk_last u v p : walk nbrs u v p -> In v p.
  Proof.
    revert u; induction p as [|x p IH]; intros u H; [destruct H|]. destruct p as [|y p].
    - simpl in H. destruct H as [-> ->]. left; reflexivity.
    - apply walk_inv in H. destruct H as [_ [_ H]]. right. exact (IH _ H).
  Qed.

  Lemma paths_complete fuel : forall vis u v p, walk nbrs u v p -> NoDup p -> (forall x, In x p -> ~ In x vis) -> length p <= S fuel ->
    In p (paths fuel vis u v).
  Proof.
    induction fuel as [|fuel IH]; intros vis u v p W N D L; (destruct p as [|x p]; [destruct W|]);
      (destruct p as [|y p]; [simpl in W; destruct W as [-> ->]; cbn [paths]; rewrite Nat.eqb_refl; left; reflexivity|]).
    - simpl in L. lia.
    - apply walk_inv in W. destruct W as [-> [Hy W]]. apply NoDup_cons_iff in N. destruct N as [Nu N].
      cbn [paths]. destruct (Nat.eqb_spec u v) as [->|Hne]; [exfalso; apply Nu; eapply walk_last; exact W|].
      apply in_flat_map. exists y. split; [exact Hy|].
      assert (E : memN y (u :: vis) = false).
      { apply memN_notIn. intros [->|Hc]; [apply Nu; left; reflexivity|]. apply (D y); [right; left; reflexivity | exact Hc]. }
      rewrite E. apply in_map. apply IH; [exact W | exact N | | simpl in *; lia].
      intros x Hx [->|Hc]; [contradiction|]. apply (D x); [right; exact Hx | exact Hc].
  Qed.

  Definition tree_check : bool :=
    let n := length nbrs in
    let ns := seq 0 n in
    forallb (fun k => forallb (fun q => Nat.ltb q n && negb (Nat.eqb q k) && memN k (nth q nbrs [])) (nth k nbrs [])
                      && nodupb (nth k nbrs [])) ns
    && forallb (fun u => forallb (fun v => Nat.eqb (length (paths n [] u v)) 1) ns) ns.

  Lemma tree_check_ok : tree_check = true -> is_tree (length nbrs) nbrs.
  Proof.
    intros H. unfold tree_check in H. apply andb_true_iff in H. destruct H as [H1 H2].
    rewrite forallb_forall in H1, H2.
    assert (A : forall k, k < length nbrs -> (forall q, In q (nth k nbrs []) -> q < length nbrs /\ q <> k /\ In k (nth q nbrs [])) /\ NoDup (nth k nbrs [])).
    { intros k Hk. specialize (H1 k ltac:(apply in_seq; lia)). apply andb_true_iff in H1. destruct H1 as [H1 H3].
      rewrite forallb_forall in H1. split.
      - intros q Hq. specialize (H1 q Hq). apply andb_true_iff in H1. destruct H1 as [H1 H4]. apply andb_true_iff in H1. destruct H1 as [H1 H5].
        apply memN_In in H4. split; [lia|]. split; [lia | exact H4].
      - apply nodupb_ok. exact H3. }
    assert (B : forall u v, u < length nbrs -> v < length nbrs -> exists p, paths (length nbrs) [] u v = [p]).
    { intros u v Hu Hv. specialize (H2 u ltac:(apply in_seq; lia)). rewrite forallb_forall in H2. specialize (H2 v ltac:(apply in_seq; lia)).
      destruct (paths (length nbrs) [] u v) as [|p [|? ?]]; try discriminate. exists p; reflexivity. }
    assert (R : forall u v p, u < length nbrs -> walk nbrs u v p -> NoDup p -> length p <= S (length nbrs)).
    { intros u v p Hu W N. assert (HR : forall p u, u < length nbrs -> walk nbrs u v p -> forall x, In x p -> x < length nbrs).
      { clear p u Hu W N. induction p as [|a p IH]; intros u Hu W x Hx; [destruct Hx|]. pose proof (walk_cons _ _ _ _ _ W). subst a.
        destruct Hx as [<-|Hx]; [exact Hu|]. destruct p as [|y p]; [destruct Hx|]. apply walk_inv in W. destruct W as [_ [Hy W]].
        apply (IH y); auto. apply (A u Hu). exact Hy. }
      pose proof (NoDup_le_length (length nbrs) p N (HR p u Hu W)). lia. }
    constructor.
    - reflexivity.
    - intros k q Hk Hq. apply (A k Hk). exact Hq.
    - intros k Hk Hc. destruct (proj1 (A k Hk) k Hc) as [_ [Hne _]]. congruence.
    - intros k Hk. apply A. exact Hk.
    - intros k q Hk Hq. apply (A k Hk). exact Hq.
    - intros u v Hu Hv. destruct (B u v Hu Hv) as [p Hp]. exists p.
      destruct (paths_sound (length nbrs) [] u v p (fun x => x)) as [W [N _]]; [rewrite Hp; left; reflexivity | auto].
    - intros u v p p' Hu Hv W N W' N'. destruct (B u v Hu Hv) as [p0 Hp].
      assert (I1 := paths_complete (length nbrs) [] u v p W N (fun _ _ x => x) (R u v p Hu W N)).
      assert (I2 := paths_complete (length nbrs) [] u v p' W' N' (fun _ _ x => x) (R u v p' Hu W' N')).
      rewrite Hp in I1, I2. destruct I1 as [<-|[]]. destruct I2 as [<-|[]]. reflexivity.
  Qed.
End Check.
