(** Lemmas about the list helpers of Base.v. *)
From Verif Require Import Base.

Lemma bind_ok {A B} (x : res A) (f : A -> res B) b :
  bind x f = Ok b -> exists a, x = Ok a /\ f a = Ok b.
Proof. destruct x as [a|e]; simpl; intros H; [exists a; auto | discriminate]. Qed.

Lemma get_ok {A} (l : list A) i x : get l i = Ok x <-> nth_error l i = Some x.
Proof. unfold get. destruct (nth_error l i); split; intros H; inversion H; subst; auto. Qed.

Lemma get_some {A} (l : list A) i x : nth_error l i = Some x -> get l i = Ok x.
Proof. intros H; apply get_ok; exact H. Qed.

Lemma get_lt {A} (l : list A) i : i < length l -> exists x, get l i = Ok x.
Proof.
  intros H. destruct (nth_error l i) as [x|] eqn:E.
  - exists x; apply get_some; exact E.
  - apply nth_error_None in E; lia.
Qed.

Lemma get_lt_inv {A} (l : list A) i x : get l i = Ok x -> i < length l.
Proof. rewrite get_ok; intros H. apply nth_error_Some. congruence. Qed.

Lemma mapM_ok {A B} (f : A -> res B) l ys :
  mapM f l = Ok ys <-> Forall2 (fun x y => f x = Ok y) l ys.
Proof.
  revert ys; induction l as [|x l IH]; intros ys; simpl.
  - split; intros H; inversion H; subst; auto.
  - split; intros H.
    + destruct (bind_ok _ _ _ H) as [y [Hy H1]].
      destruct (bind_ok _ _ _ H1) as [zs [Hz H2]].
      inversion H2; subst. constructor; [exact Hy | apply IH; exact Hz].
    + inversion H as [|? y ? ys' Hy Hys]; subst.
      rewrite Hy; simpl. apply IH in Hys. rewrite Hys; simpl. reflexivity.
Qed.

Lemma mapM_length {A B} (f : A -> res B) l ys : mapM f l = Ok ys -> length ys = length l.
Proof. intros H; apply mapM_ok in H. induction H; simpl; congruence. Qed.

Lemma mapM_total {A B} (f : A -> res B) l :
  (forall x, In x l -> exists y, f x = Ok y) -> exists ys, mapM f l = Ok ys.
Proof.
  induction l as [|x l IH]; intros H; simpl.
  - exists []; reflexivity.
  - destruct (H x (or_introl eq_refl)) as [y Hy].
    destruct IH as [ys Hys]; [intros z Hz; apply H; right; exact Hz|].
    exists (y :: ys). rewrite Hy; simpl; rewrite Hys; reflexivity.
Qed.

Lemma mapM_nth {A B} (f : A -> res B) l ys i x :
  mapM f l = Ok ys -> nth_error l i = Some x ->
  exists y, nth_error ys i = Some y /\ f x = Ok y.
Proof.
  intros H; apply mapM_ok in H. revert i; induction H as [|a b l ys Hab Hl IH]; intros i Hi.
  - destruct i; discriminate.
  - destruct i as [|i]; simpl in *.
    + inversion Hi; subst. exists b; auto.
    + apply IH; exact Hi.
Qed.

Lemma mapM_nth_inv {A B} (f : A -> res B) l ys i y :
  mapM f l = Ok ys -> nth_error ys i = Some y ->
  exists x, nth_error l i = Some x /\ f x = Ok y.
Proof.
  intros H; apply mapM_ok in H. revert i; induction H as [|a b l ys Hab Hl IH]; intros i Hi.
  - destruct i; discriminate.
  - destruct i as [|i]; simpl in *.
    + inversion Hi; subst. exists a; auto.
    + apply IH; exact Hi.
Qed.

Lemma mapM_In {A B} (f : A -> res B) l ys y :
  mapM f l = Ok ys -> In y ys -> exists x, In x l /\ f x = Ok y.
Proof.
  intros H Hy. apply In_nth_error in Hy. destruct Hy as [i Hi].
  destruct (mapM_nth_inv _ _ _ _ _ H Hi) as [x [Hx Hf]].
  exists x; split; [eapply nth_error_In; exact Hx | exact Hf].
Qed.

Lemma mapM_map {A B C} (f : B -> res C) (g : A -> B) l :
  mapM f (map g l) = mapM (fun x => f (g x)) l.
Proof. induction l as [|x l IH]; simpl; [reflexivity|]. rewrite IH; reflexivity. Qed.

Lemma mapM_ext {A B} (f g : A -> res B) l :
  (forall x, In x l -> f x = g x) -> mapM f l = mapM g l.
Proof.
  induction l as [|x l IH]; intros H; simpl; [reflexivity|].
  rewrite (H x (or_introl eq_refl)), IH; [reflexivity|].
  intros y Hy; apply H; right; exact Hy.
Qed.

Lemma mapM_Ok_map {A B} (f : A -> B) l : mapM (fun x => Ok (f x)) l = Ok (map f l).
Proof. induction l as [|x l IH]; simpl; [reflexivity|]. rewrite IH; reflexivity. Qed.

(** insertion sort *)
Section SortBy.
  Variable A : Type.
  Variable key : A -> Z.

  Definition key_le (x y : A) : Prop := (key x <= key y)%Z.

  Lemma insert_by_perm x l : Permutation (insert_by key x l) (x :: l).
  Proof.
    induction l as [|y l IH]; simpl; [auto|].
    destruct (Z.leb_spec (key x) (key y)); [auto|].
    rewrite IH. apply perm_swap.
  Qed.

  Lemma isort_by_perm l : Permutation (isort_by key l) l.
  Proof.
    induction l as [|x l IH]; [apply perm_nil|].
    change (isort_by key (x :: l)) with (insert_by key x (isort_by key l)).
    rewrite insert_by_perm. apply perm_skip, IH.
  Qed.

  Lemma insert_by_sorted x l :
    StronglySorted key_le l -> StronglySorted key_le (insert_by key x l).
  Proof.
    induction l as [|y l IH]; intros H; simpl.
    - constructor; [constructor | constructor].
    - inversion H as [|? ? Hs Hf]; subst.
      destruct (Z.leb_spec (key x) (key y)) as [Hle|Hgt].
      + constructor; [exact H|]. constructor; [exact Hle|].
        eapply Forall_impl; [|exact Hf]. intros z Hz. unfold key_le in *; lia.
      + constructor; [apply IH; exact Hs|].
        eapply Permutation_Forall.
        * symmetry; apply insert_by_perm.
        * constructor; [unfold key_le; lia | exact Hf].
  Qed.

  Lemma isort_by_sorted l : StronglySorted key_le (isort_by key l).
  Proof.
    induction l as [|x l IH]; [constructor|].
    change (isort_by key (x :: l)) with (insert_by key x (isort_by key l)).
    apply insert_by_sorted, IH.
  Qed.

  Lemma isort_by_In x l : In x (isort_by key l) <-> In x l.
  Proof.
    split; intros H.
    - eapply Permutation_in; [apply isort_by_perm | exact H].
    - eapply Permutation_in; [symmetry; apply isort_by_perm | exact H].
  Qed.

  Lemma isort_by_length l : length (isort_by key l) = length l.
  Proof. apply Permutation_length, isort_by_perm. Qed.

  Lemma insert_by_id x l :
    StronglySorted key_le (x :: l) -> insert_by key x l = x :: l.
  Proof.
    intros H. destruct l as [|y l]; simpl; [reflexivity|].
    inversion H as [|? ? _ Hf]; subst. inversion Hf as [|? ? Hxy _]; subst.
    unfold key_le in Hxy. destruct (Z.leb_spec (key x) (key y)); [reflexivity|lia].
  Qed.

  Lemma isort_by_id l : StronglySorted key_le l -> isort_by key l = l.
  Proof.
    induction l as [|x l IH]; intros H; [reflexivity|].
    change (isort_by key (x :: l)) with (insert_by key x (isort_by key l)).
    inversion H as [|? ? Hs _]; subst. rewrite IH by exact Hs.
    apply insert_by_id; exact H.
  Qed.
End SortBy.

Lemma StronglySorted_impl {A} (R S : A -> A -> Prop) l :
  (forall x y, R x y -> S x y) -> StronglySorted R l -> StronglySorted S l.
Proof.
  intros HRS H; induction H as [|x l Hs IH Hf]; constructor; auto.
  eapply Forall_impl; [|exact Hf]. intros y Hy; apply HRS; exact Hy.
Qed.

Lemma StronglySorted_app {A} (R : A -> A -> Prop) l1 l2 :
  StronglySorted R (l1 ++ l2) <->
  StronglySorted R l1 /\ StronglySorted R l2 /\
  (forall x y, In x l1 -> In y l2 -> R x y).
Proof.
  induction l1 as [|a l1 IH]; simpl.
  - split; [intros H; repeat split; [constructor|exact H|tauto] | intros [_ [H _]]; exact H].
  - split.
    + intros H; inversion H as [|? ? Hs Hf]; subst. apply IH in Hs. destruct Hs as [H1 [H2 H3]].
      apply Forall_app in Hf. destruct Hf as [F1 F2].
      repeat split; [constructor; assumption | exact H2 |].
      intros x y [<-|Hx] Hy; [rewrite Forall_forall in F2; apply F2; exact Hy | apply H3; assumption].
    + intros [H1 [H2 H3]]. inversion H1 as [|? ? Hs Hf]; subst.
      constructor.
      * apply IH; repeat split; [exact Hs | exact H2 | intros x y Hx Hy; apply H3; auto].
      * apply Forall_app; split; [exact Hf|]. apply Forall_forall. intros y Hy; apply H3; auto.
Qed.

Lemma StronglySorted_map {A B} (f : A -> B) (R : B -> B -> Prop) l :
  StronglySorted (fun x y => R (f x) (f y)) l <-> StronglySorted R (map f l).
Proof.
  induction l as [|x l IH]; simpl; [split; constructor|].
  split; intros H; inversion H as [|? ? Hs Hf]; subst; constructor; try (apply IH; exact Hs).
  - rewrite Forall_map; exact Hf.
  - rewrite Forall_map in Hf; exact Hf.
Qed.

Lemma StronglySorted_filter {A} (R : A -> A -> Prop) (f : A -> bool) l :
  StronglySorted R l -> StronglySorted R (filter f l).
Proof.
  intros H; induction H as [|x l Hs IH Hf]; simpl; [constructor|].
  destruct (f x); [constructor|]; auto.
  apply Forall_forall. intros y Hy. apply filter_In in Hy. destruct Hy as [Hy _].
  rewrite Forall_forall in Hf; auto.
Qed.

Lemma StronglySorted_nth {A} (R : A -> A -> Prop) l i j x y :
  StronglySorted R l -> i < j -> nth_error l i = Some x -> nth_error l j = Some y -> R x y.
Proof.
  intros H; revert i j; induction H as [|a l Hs IH Hf]; intros i j Hij Hi Hj.
  - destruct i; discriminate.
  - destruct i as [|i]; destruct j as [|j]; simpl in *; try lia.
    + inversion Hi; subst. rewrite Forall_forall in Hf. apply Hf. eapply nth_error_In; exact Hj.
    + eapply IH with (i := i) (j := j); eauto; lia.
Qed.

Lemma StronglySorted_lt_NoDup {A} (f : A -> Z) l :
  StronglySorted (fun x y => (f x < f y)%Z) l -> NoDup l.
Proof.
  intros H; induction H as [|x l Hs IH Hf]; constructor; auto.
  intros Hin. rewrite Forall_forall in Hf. specialize (Hf _ Hin). lia.
Qed.

(** np.unique *)
Lemma np_unique_In x l : In x (np_unique l) <-> In x l.
Proof. unfold np_unique. rewrite isort_by_In. apply nodup_In. Qed.

Lemma np_unique_NoDup l : NoDup (np_unique l).
Proof.
  unfold np_unique. eapply Permutation_NoDup; [symmetry; apply isort_by_perm|].
  apply NoDup_nodup.
Qed.

Lemma sorted_nodup_lt l :
  StronglySorted Z.le l -> NoDup l -> StronglySorted Z.lt l.
Proof.
  intros H; induction H as [|x l Hs IH Hf]; intros Hn; constructor; inversion Hn; subst; auto.
  apply Forall_forall. intros y Hy. rewrite Forall_forall in Hf. specialize (Hf _ Hy).
  assert (x <> y) by (intros ->; contradiction). lia.
Qed.

Lemma np_unique_sorted l : StronglySorted Z.lt (np_unique l).
Proof.
  apply sorted_nodup_lt; [|apply np_unique_NoDup].
  eapply StronglySorted_impl; [|apply isort_by_sorted].
  intros x y H; exact H.
Qed.

Lemma memZ_In x l : memZ x l = true <-> In x l.
Proof.
  unfold memZ. rewrite existsb_exists. split.
  - intros [y [Hy He]]. apply Z.eqb_eq in He; subst; exact Hy.
  - intros H; exists x; split; [exact H | apply Z.eqb_refl].
Qed.

Lemma memZ_notIn x l : memZ x l = false <-> ~ In x l.
Proof.
  rewrite <- memZ_In. destruct (memZ x l); split; intros H; congruence.
Qed.

Lemma memN_In x l : memN x l = true <-> In x l.
Proof.
  unfold memN. rewrite existsb_exists. split.
  - intros [y [Hy He]]. apply Nat.eqb_eq in He; subst; exact Hy.
  - intros H; exists x; split; [exact H | apply Nat.eqb_refl].
Qed.

Lemma memN_notIn x l : memN x l = false <-> ~ In x l.
Proof.
  rewrite <- memN_In. destruct (memN x l); split; intros H; congruence.
Qed.

(** upd *)
Lemma upd_length {A} i (x : A) l : length (upd i x l) = length l.
Proof. revert i; induction l as [|y l IH]; intros [|i]; simpl; auto. Qed.

Lemma upd_nth_same {A} i (x : A) l : i < length l -> nth_error (upd i x l) i = Some x.
Proof. revert i; induction l as [|y l IH]; intros [|i] H; simpl in *; auto; try lia. apply IH; lia. Qed.

Lemma upd_nth_other {A} i j (x : A) l : i <> j -> nth_error (upd i x l) j = nth_error l j.
Proof.
  revert i j; induction l as [|y l IH]; intros [|i] [|j] H; simpl; auto; try congruence.
Qed.

(** slices *)
Lemma slice_length {A} a b (l : list A) : b <= length l -> length (slice a b l) = b - a.
Proof. intros H. unfold slice. rewrite firstn_length, skipn_length. lia. Qed.

Lemma nth_error_firstn {A} n i (l : list A) : i < n -> nth_error (firstn n l) i = nth_error l i.
Proof.
  revert i l; induction n as [|n IH]; intros i l H; [lia|].
  destruct l as [|x l]; destruct i as [|i]; simpl; auto. apply IH; lia.
Qed.

Lemma nth_error_skipn {A} n i (l : list A) : nth_error (skipn n l) i = nth_error l (n + i).
Proof.
  revert i l; induction n as [|n IH]; intros i l; [reflexivity|].
  destruct l as [|x l]; simpl; [destruct i; reflexivity|]. apply IH.
Qed.

Lemma nth_error_slice {A} a b i (l : list A) :
  i < b - a -> nth_error (slice a b l) i = nth_error l (a + i).
Proof. intros H. unfold slice. rewrite nth_error_firstn by exact H. apply nth_error_skipn. Qed.

Lemma nth_error_ext {A} (l1 l2 : list A) :
  (forall i, nth_error l1 i = nth_error l2 i) -> l1 = l2.
Proof.
  revert l2; induction l1 as [|x l1 IH]; intros l2 H.
  - destruct l2 as [|y l2]; [reflexivity|]. specialize (H 0); discriminate.
  - destruct l2 as [|y l2]; [specialize (H 0); discriminate|].
    f_equal; [specialize (H 0); simpl in H; congruence|].
    apply IH. intros i. apply (H (S i)).
Qed.

Lemma firstn_skipn_nth {A} i (l : list A) x :
  nth_error l i = Some x -> skipn i l = x :: skipn (S i) l.
Proof.
  revert l; induction i as [|i IH]; intros [|y l] H; simpl in *; try discriminate.
  - inversion H; reflexivity.
  - apply IH; exact H.
Qed.

Lemma NoDup_filter {A} (f : A -> bool) l : NoDup l -> NoDup (filter f l).
Proof.
  intros H; induction H as [|x l Hx Hl IH]; simpl; [constructor|].
  destruct (f x); [constructor|]; auto. intros Hin. apply filter_In in Hin. tauto.
Qed.

Lemma NoDup_map_inj {A B} (f : A -> B) l :
  (forall x y, In x l -> In y l -> f x = f y -> x = y) -> NoDup l -> NoDup (map f l).
Proof.
  intros Hinj H; induction H as [|x l Hx Hl IH]; simpl; [constructor|].
  constructor.
  - intros Hin. apply in_map_iff in Hin. destruct Hin as [y [He Hy]].
    assert (y = x) by (apply Hinj; [right; exact Hy | left; reflexivity | exact He]).
    subst; contradiction.
  - apply IH. intros a b Ha Hb; apply Hinj; right; assumption.
Qed.

Lemma NoDup_app {A} (l1 l2 : list A) :
  NoDup l1 -> NoDup l2 -> (forall x, In x l1 -> In x l2 -> False) -> NoDup (l1 ++ l2).
Proof.
  intros H1; induction H1 as [|x l Hx Hl IH]; intros H2 Hd; simpl; [exact H2|].
  constructor.
  - intros Hin. apply in_app_or in Hin. destruct Hin as [Hin|Hin]; [contradiction|].
    apply (Hd x); [left; reflexivity | exact Hin].
  - apply IH; [exact H2|]. intros y Hy1 Hy2. apply (Hd y); [right; exact Hy1 | exact Hy2].
Qed.

Lemma NoDup_app_inv {A} (l1 l2 : list A) :
  NoDup (l1 ++ l2) -> NoDup l1 /\ NoDup l2 /\ (forall x, In x l1 -> In x l2 -> False).
Proof.
  induction l1 as [|x l1 IH]; simpl; intros H.
  - repeat split; [constructor | exact H | tauto].
  - inversion H as [|? ? Hx Hn]; subst. destruct (IH Hn) as [H1 [H2 H3]].
    repeat split; [|exact H2|].
    + constructor; [|exact H1]. intros Hin; apply Hx; apply in_or_app; left; exact Hin.
    + intros y [<-|Hy] Hy2; [apply Hx; apply in_or_app; right; exact Hy2 | exact (H3 y Hy Hy2)].
Qed.

Lemma NoDup_concat {A} (ls : list (list A)) :
  (forall l, In l ls -> NoDup l) ->
  (forall i j l1 l2 x, i <> j -> nth_error ls i = Some l1 -> nth_error ls j = Some l2 ->
     In x l1 -> In x l2 -> False) ->
  NoDup (concat ls).
Proof.
  induction ls as [|l ls IH]; intros Hn Hd; simpl; [constructor|].
  apply NoDup_app.
  - apply Hn; left; reflexivity.
  - apply IH; [intros l' Hl'; apply Hn; right; exact Hl'|].
    intros i j l1 l2 x Hij H1 H2. apply (Hd (S i) (S j) l1 l2 x); [lia | exact H1 | exact H2].
  - intros x Hx Hc. apply in_concat in Hc. destruct Hc as [l' [Hl' Hx']].
    apply In_nth_error in Hl'. destruct Hl' as [j Hj].
    apply (Hd 0 (S j) l l' x); [lia | reflexivity | exact Hj | exact Hx | exact Hx'].
Qed.

Lemma skipn_skipn {A} a b (l : list A) : skipn a (skipn b l) = skipn (b + a) l.
Proof.
  revert l; induction b as [|b IH]; intros l; [reflexivity|].
  destruct l as [|x l]; simpl; [destruct a; reflexivity | apply IH].
Qed.

Lemma filter_length_le {A} (f : A -> bool) l : length (filter f l) <= length l.
Proof. induction l as [|x l IH]; simpl; [lia|]. destruct (f x); simpl; lia. Qed.

Lemma Forall2_impl {A B} (P Q : A -> B -> Prop) l l' :
  (forall a b, P a b -> Q a b) -> Forall2 P l l' -> Forall2 Q l l'.
Proof. intros H F. induction F; constructor; auto. Qed.
