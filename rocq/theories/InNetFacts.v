(** Proofs about the in-network sum. *)
From Verif Require Import Base BaseFacts Buffers BufFacts CentrFacts Sched SchedSpec ChunkSpec ChunkFacts
  Tree TreeSpec TreeFacts TreeFacts2 InNet InNetSpec.
From Coq Require Import Reals Lra Permutation.
Open Scope nat_scope.

(** ** Sums over lists *)
Definition lsum (f : nat -> R) (l : list nat) : R := fold_right (fun k a => (f k + a)%R) 0%R l.

Lemma lsum_app f l1 l2 : lsum f (l1 ++ l2) = (lsum f l1 + lsum f l2)%R.
Proof. induction l1 as [|x l1 IH]; simpl; [lra|]. rewrite IH. lra. Qed.
Lemma lsum_perm f l1 l2 : Permutation l1 l2 -> lsum f l1 = lsum f l2.
Proof. induction 1; simpl; lra. Qed.
Lemma lsum_ext f g l : (forall x, In x l -> f x = g x) -> lsum f l = lsum g l.
Proof. induction l as [|x l IH]; intros H; simpl; [reflexivity|]. rewrite H by (left; reflexivity). rewrite IH; [reflexivity|]. intros; apply H; right; assumption. Qed.
Lemma lsum_seq f n : lsum f (seq 0 n) = sumR n f.
Proof. induction n as [|n IH]; [reflexivity|]. rewrite seq_S, lsum_app, IH. simpl. lra. Qed.
Lemma lsum_flat_map f (c : nat -> list nat) l : lsum f (flat_map c l) = lsum (fun k => lsum f (c k)) l.
Proof. induction l as [|x l IH]; simpl; [reflexivity|]. rewrite lsum_app, IH. reflexivity. Qed.
Lemma lsum_plus f g l : lsum (fun k => (f k + g k)%R) l = (lsum f l + lsum g l)%R.
Proof. induction l as [|x l IH]; simpl; [lra|]. rewrite IH. lra. Qed.

Lemma sumR_except n k (f : nat -> R) : k < n -> (sumR n f - f k)%R = sumR n (fun q => if Nat.eqb q k then 0%R else f q).
Proof.
  induction n as [|n IH]; intros Hk; [lia|]. cbn [sumR]. destruct (Nat.eqb_spec n k) as [->|Hne].
  - rewrite (sumR_ext k (fun q => if Nat.eqb q k then 0%R else f q) f); [lra|].
    intros i Hi. destruct (Nat.eqb_spec i k); [lia | reflexivity].
  - rewrite <- IH by lia. lra.
Qed.

(** ** Vectors *)
Lemma map2_length {A B C} (f : A -> B -> C) a b : length a = length b -> length (map2 f a b) = length a.
Proof. revert b; induction a as [|x a IH]; intros [|y b] H; simpl in *; try lia; try reflexivity. rewrite IH; lia. Qed.
Lemma map2_nth (f : R -> R -> R) a b i : length a = length b -> i < length a -> nth i (map2 f a b) 0%R = f (nth i a 0%R) (nth i b 0%R).
Proof. revert b i; induction a as [|x a IH]; intros [|y b] [|i] H Hi; simpl in *; try lia; try reflexivity. apply IH; lia. Qed.

Lemma np_iadd_ok N a b : length a = N -> length b = N ->
  exists c, np_iadd a b = Ok c /\ length c = N /\ forall i, i < N -> nth i c 0%R = (nth i a 0 + nth i b 0)%R.
Proof.
  intros Ha Hb. exists (map2 Rplus a b). unfold np_iadd. rewrite Ha, Hb, Nat.eqb_refl. split; [reflexivity|].
  split; [rewrite map2_length; congruence|]. intros i Hi. apply map2_nth; congruence.
Qed.
Lemma np_sub_ok N a b : length a = N -> length b = N ->
  exists c, np_sub a b = Ok c /\ length c = N /\ forall i, i < N -> nth i c 0%R = (nth i a 0 - nth i b 0)%R.
Proof.
  intros Ha Hb. exists (map2 Rminus a b). unfold np_sub. rewrite Ha, Hb, Nat.eqb_refl. split; [reflexivity|].
  split; [rewrite map2_length; congruence|]. intros i Hi. apply map2_nth; congruence.
Qed.

(** ** Telescoping along the levels *)
Section Telescope.
  Variables (n : nat) (nbrs : list (list nat)) (r : nat) (par dep : nat -> nat).
  Hypothesis T : rooted n nbrs r par dep.
  Variables z S : nat -> R.
  Hypothesis HS : forall k, k < n -> S k = (z k + lsum S (children nbrs r par k))%R.

  Lemma telescope d : S r = (lsum z (below nbrs r par d) + lsum S (level_at nbrs r par d))%R.
  Proof.
    induction d as [|d IH]; [simpl; lra|]. rewrite IH, below_S, lsum_app. cbn [level_at]. rewrite lsum_flat_map.
    assert (E : lsum S (level_at nbrs r par d) = lsum (fun k => (z k + lsum S (children nbrs r par k))%R) (level_at nbrs r par d)).
    { apply lsum_ext. intros k Hk. apply HS. apply (level_In n nbrs r par dep T) in Hk. tauto. }
    rewrite E, lsum_plus. lra.
  Qed.

  Lemma root_total m : (forall k, k < n -> dep k <= m) -> S r = sumR n z.
  Proof.
    intros Hm. rewrite (telescope (Datatypes.S m)).
    assert (E : level_at nbrs r par (Datatypes.S m) = []).
    { destruct (level_at nbrs r par (Datatypes.S m)) as [|k l] eqn:El; [reflexivity|]. exfalso.
      assert (Hin : In k (level_at nbrs r par (Datatypes.S m))) by (rewrite El; left; reflexivity).
      apply (level_In n nbrs r par dep T) in Hin. specialize (Hm k). lia. }
    rewrite E. rewrite (lsum_perm z _ (seq 0 n)) by (eapply below_all; eauto). rewrite lsum_seq. simpl. lra.
  Qed.
End Telescope.

(** ** Splitting the events of an instant by type *)
Definition is_ty (ty : evtype) (e : nat * evtype) : bool :=
  match snd e, ty with Tr, Tr | Fu, Fu | Bc, Bc | Re, Re | Up, Up => true | _, _ => false end.
Lemma is_ty_iff ty e : is_ty ty e = true <-> snd e = ty.
Proof. unfold is_ty. destruct e as [k t]; destruct t, ty; simpl; split; congruence. Qed.

Lemma filter_none {A} (f : A -> bool) l : (forall x, In x l -> f x = false) -> filter f l = [].
Proof. induction l as [|x l IH]; intros H; simpl; [reflexivity|]. rewrite H by (left; reflexivity). apply IH. intros; apply H; right; assumption. Qed.

Lemma ti_before_code o a b : ti_before o a b -> (evcode (snd a) <= evcode (snd b))%Z.
Proof. intros [H|[-> _]]; lia. Qed.

Lemma split_by_type o evs : StronglySorted (ti_before o) evs ->
  evs = filter (is_ty Tr) evs ++ filter (is_ty Fu) evs ++ filter (is_ty Bc) evs ++ filter (is_ty Re) evs ++ filter (is_ty Up) evs.
Proof.
  induction 1 as [|[k t] l Hs IH Hf]; [reflexivity|]. rewrite Forall_forall in Hf.
  assert (HN : forall ty, (evcode ty < evcode t)%Z -> filter (is_ty ty) l = []).
  { intros ty Hty. apply filter_none. intros x Hx. specialize (Hf x Hx). apply ti_before_code in Hf. simpl in Hf.
    destruct (is_ty ty x) eqn:E; [|reflexivity]. apply is_ty_iff in E. rewrite E in Hf. lia. }
  assert (HF : forall ty, filter (is_ty ty) ((k, t) :: l) = if is_ty ty (k, t) then (k, t) :: filter (is_ty ty) l else filter (is_ty ty) l) by reflexivity.
  rewrite !HF. clear HF.
  destruct t;
    repeat match goal with |- context [if is_ty ?a ?b then _ else _] => let v := eval compute in (is_ty a b) in change (is_ty a b) with v; cbv iota end.
  - cbn [app]. f_equal. exact IH.
  - rewrite (HN Tr) in * by (simpl; lia). cbn [app] in *. f_equal. exact IH.
  - rewrite (HN Tr), (HN Fu) in * by (simpl; lia). cbn [app] in *. f_equal. exact IH.
  - rewrite (HN Tr), (HN Fu), (HN Bc) in * by (simpl; lia). cbn [app] in *. f_equal. exact IH.
  - rewrite (HN Tr), (HN Fu), (HN Bc), (HN Re) in * by (simpl; lia). cbn [app] in *. f_equal. exact IH.
Qed.

Lemma sorted_filter {A} (R : A -> A -> Prop) f l : StronglySorted R l -> StronglySorted R (filter f l).
Proof.
  induction 1 as [|x l Hs IH Hf]; simpl; [constructor|]. destruct (f x); [|exact IH]. constructor; [exact IH|].
  rewrite Forall_forall in *. intros y Hy. apply filter_In in Hy. apply Hf. tauto.
Qed.
Lemma sorted_split {A} (R : A -> A -> Prop) l1 x l2 : StronglySorted R (l1 ++ x :: l2) -> forall y, In y l2 -> R x y.
Proof.
  induction l1 as [|a l1 IH]; simpl; intros H y Hy; apply StronglySorted_inv in H; destruct H as [H1 H2].
  - rewrite Forall_forall in H2. auto. - apply IH; assumption.
Qed.
