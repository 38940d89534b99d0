(** Lemmas about the event scheduler (Sched.v): grouping, sorting, completeness. *)
From Verif Require Import Base BaseFacts Sched SchedSpec.
Open Scope Z_scope.

Definition pair_of (e : event) : nat * evtype := (ev_node e, ev_type e).

Lemma evtype_eqb_eq a b : evtype_eqb a b = true <-> a = b.
Proof.
  unfold evtype_eqb. destruct a, b; simpl; split; intros H; try reflexivity; try discriminate.
Qed.

Lemma evtype_dec (a b : evtype) : {a = b} + {a <> b}.
Proof. decide equality. Defined.

Lemma pairdec (a b : nat * evtype) : {a = b} + {a <> b}.
Proof. decide equality; [apply evtype_dec | apply Nat.eq_dec]. Defined.

(** ** Grouping *)
Fixpoint same_t (t : Z) (l : list event) : list event :=
  match l with
  | [] => []
  | e :: l' => if ev_t e =? t then e :: same_t t l' else []
  end.

Fixpoint drop_t (t : Z) (l : list event) : list event :=
  match l with
  | [] => []
  | e :: l' => if ev_t e =? t then drop_t t l' else l
  end.

Lemma same_drop t l : same_t t l ++ drop_t t l = l.
Proof. induction l as [|e l IH]; simpl; [reflexivity|]. destruct (ev_t e =? t); simpl; congruence. Qed.

Lemma drop_t_length t l : (length (drop_t t l) <= length l)%nat.
Proof. induction l as [|e l IH]; simpl; [lia|]. destruct (ev_t e =? t); simpl; lia. Qed.

Lemma drop_t_skipn t l : drop_t t l = skipn (length (same_t t l)) l.
Proof. induction l as [|e l IH]; simpl; [reflexivity|]. destruct (ev_t e =? t); simpl; auto. Qed.

Lemma same_t_all t l : Forall (fun e => ev_t e = t) (same_t t l).
Proof.
  induction l as [|e l IH]; simpl; [constructor|].
  destruct (Z.eqb_spec (ev_t e) t); [constructor|]; auto.
Qed.

Lemma drop_t_gt t l :
  StronglySorted (fun a b => ev_t a <= ev_t b) l ->
  Forall (fun e => t <= ev_t e) l ->
  Forall (fun e => t < ev_t e) (drop_t t l).
Proof.
  induction l as [|e l IH]; intros Hs Hf; simpl; [constructor|].
  inversion Hs as [|? ? Hs' Hle]; subst. inversion Hf as [|? ? He Hf']; subst.
  destruct (Z.eqb_spec (ev_t e) t); [apply IH; assumption|].
  constructor; [lia|]. eapply Forall_impl; [|exact Hle]. simpl; intros; lia.
Qed.

Lemma drop_t_sorted t l :
  StronglySorted (fun a b => ev_t a <= ev_t b) l ->
  StronglySorted (fun a b => ev_t a <= ev_t b) (drop_t t l).
Proof.
  intros H. rewrite <- (same_drop t l) in H. apply StronglySorted_app in H. tauto.
Qed.

Lemma group_loop_spec fuel evs i t acc :
  (length evs - i <= fuel)%nat ->
  (S i < length evs)%nat ->
  forall e', nth_error evs (S i) = Some e' ->
  group_loop fuel evs (length evs) i t (ev_t e') acc =
  Ok ((S i + length (same_t t (skipn (S i) evs)))%nat,
      acc ++ map pair_of (same_t t (skipn (S i) evs))).
Proof.
  revert i acc; induction fuel as [|fuel IH]; intros i acc Hf Hi e' He'; [lia|].
  cbn [group_loop]. rewrite (firstn_skipn_nth _ _ _ He'). cbn [same_t].
  rewrite (Z.eqb_sym (ev_t e') t).
  destruct (Z.eqb_spec t (ev_t e')) as [E|E].
  - unfold get at 1. rewrite He'. cbn [bind].
    destruct (Z.ltb_spec (Z.of_nat (S i)) (Z.of_nat (length evs) - 1)) as [Hl|Hl].
    + destruct (nth_error evs (S (S i))) as [e''|] eqn:E2.
      2:{ apply nth_error_None in E2; lia. }
      unfold get. rewrite E2. cbn [bind]. rewrite <- E.
      rewrite (IH (S i) _ ltac:(lia) ltac:(lia) e'' E2).
      cbn [map length]. rewrite <- app_assoc. simpl app. do 2 f_equal. lia.
    + assert (Hk : skipn (S (S i)) evs = []) by (apply skipn_all2; lia).
      rewrite Hk. cbn [same_t map length]. do 2 f_equal. lia.
  - cbn [map length]. rewrite app_nil_r. do 2 f_equal. lia.
Qed.

Lemma groupping_spec evs i e acc :
  nth_error evs i = Some e ->
  events_groupping_check evs (length evs) i acc =
  Ok ((S i + length (same_t (ev_t e) (skipn (S i) evs)))%nat,
      acc ++ map pair_of (same_t (ev_t e) (skipn (S i) evs))).
Proof.
  intros He. unfold events_groupping_check, get at 1. rewrite He. cbn [bind].
  assert (Hi : (i < length evs)%nat) by (apply nth_error_Some; congruence).
  destruct (Z.ltb_spec (Z.of_nat i) (Z.of_nat (length evs) - 1)) as [Hl|Hl].
  - destruct (nth_error evs (S i)) as [e'|] eqn:E2.
    2:{ apply nth_error_None in E2; lia. }
    unfold get. rewrite E2. cbn [bind].
    apply group_loop_spec; [lia | lia | exact E2].
  - assert (Hk : skipn (S i) evs = []) by (apply skipn_all2; lia).
    rewrite Hk. cbn [same_t map length]. rewrite app_nil_r. do 2 f_equal. lia.
Qed.

(** List-level view of the main loop: groups of simultaneous events. *)
Fixpoint groups (fuel : nat) (l : list event) : list (Z * list (nat * evtype)) :=
  match fuel with
  | O => []
  | S f => match l with
           | [] => []
           | e :: l' => (ev_t e, pair_of e :: map pair_of (same_t (ev_t e) l'))
                        :: groups f (drop_t (ev_t e) l')
           end
  end.

(** Tree bookkeeping over the groups. *)
Fixpoint order_groups (ti : bool) (trI : list Z) (os : list ordering) (st : treest)
    (gs : list (Z * list (nat * evtype))) : res (list (Z * list (nat * evtype))) :=
  match gs with
  | [] => Ok []
  | (t, g) :: gs' =>
    do (st', o) <- tree_step ti trI os st t;
    do rest <- order_groups ti trI os st' gs';
    Ok ((t, sort_simultaneous_events g ti o) :: rest)
  end.

(** Bypass bookkeeping over the ordered groups. *)
Fixpoint attach (isseq : bool) (n : nat) (mf : Z) (st : bypst)
    (gs : list (Z * list (nat * evtype))) : list instant :=
  match gs with
  | [] => []
  | (t, g) :: gs' =>
    let (st', byp) := bypass_step isseq n mf st g in
    mkInst t g byp :: attach isseq n mf st' gs'
  end.

Lemma build_loop_spec fuel evs ti trI os isseq n mf i bst tst :
  (length evs - i <= fuel)%nat ->
  build_loop fuel evs (length evs) ti trI os isseq n mf i bst tst =
  (do gs <- order_groups ti trI os tst (groups fuel (skipn i evs));
   Ok (attach isseq n mf bst gs)).
Proof.
  revert i bst tst; induction fuel as [|fuel IH]; intros i bst tst Hf.
  - cbn [build_loop]. destruct (Nat.ltb_spec i (length evs)); [lia|]. reflexivity.
  - cbn [build_loop groups]. destruct (Nat.ltb_spec i (length evs)) as [Hi|Hi].
    + destruct (nth_error evs i) as [e|] eqn:He.
      2:{ apply nth_error_None in He; lia. }
      unfold get. rewrite He. cbn [bind]. rewrite (firstn_skipn_nth _ _ _ He).
      cbn [order_groups].
      destruct (tree_step ti trI os tst (ev_t e)) as [[tst' o]|er]; [|reflexivity].
      cbn [bind]. rewrite (groupping_spec _ _ _ _ He). cbn [bind].
      destruct (bypass_step isseq n mf bst
          (sort_simultaneous_events
             ([(ev_node e, ev_type e)] ++ map pair_of (same_t (ev_t e) (skipn (S i) evs))) ti o))
        as [bst' byp] eqn:EB.
      rewrite IH by lia.
      replace (skipn (S i + length (same_t (ev_t e) (skipn (S i) evs))) evs)
        with (drop_t (ev_t e) (skipn (S i) evs)).
      2:{ rewrite drop_t_skipn, skipn_skipn. reflexivity. }
      destruct (order_groups ti trI os tst' (groups fuel (drop_t (ev_t e) (skipn (S i) evs))))
        as [gs|er]; [|reflexivity].
      cbn [bind attach]. change (pair_of e :: map pair_of (same_t (ev_t e) (skipn (S i) evs)))
        with ([(ev_node e, ev_type e)] ++ map pair_of (same_t (ev_t e) (skipn (S i) evs))).
      rewrite EB. reflexivity.
    + rewrite skipn_all2 by lia. reflexivity.
Qed.

(** Facts about [groups]. *)
Lemma groups_times fuel l :
  StronglySorted (fun a b => ev_t a <= ev_t b) l ->
  StronglySorted Z.lt (map fst (groups fuel l)) /\
  Forall (fun t => exists e, In e l /\ ev_t e = t) (map fst (groups fuel l)).
Proof.
  revert l; induction fuel as [|fuel IH]; intros l Hs; simpl; [split; constructor|].
  destruct l as [|e l]; simpl; [split; constructor|].
  inversion Hs as [|? ? Hs' Hle]; subst.
  destruct (IH (drop_t (ev_t e) l) (drop_t_sorted _ _ Hs')) as [H1 H2].
  assert (Hgt := drop_t_gt (ev_t e) l Hs' Hle).
  split.
  - constructor; [exact H1|]. eapply Forall_impl; [|exact H2].
    intros t [e' [Hin <-]]. rewrite Forall_forall in Hgt. apply Hgt; exact Hin.
  - constructor; [exists e; auto|].
    eapply Forall_impl; [|exact H2]. intros t [e' [Hin <-]].
    exists e'; split; [|reflexivity]. right. rewrite <- (same_drop (ev_t e) l).
    apply in_or_app; right; exact Hin.
Qed.

Definition flat (gs : list (Z * list (nat * evtype))) : list event :=
  flat_map (fun g => map (fun p => mkEv (fst g) (fst p) (snd p)) (snd g)) gs.

Lemma groups_flat fuel l : (length l <= fuel)%nat -> flat (groups fuel l) = l.
Proof.
  revert l; induction fuel as [|fuel IH]; intros l Hf; simpl.
  - destruct l; [reflexivity | simpl in Hf; lia].
  - destruct l as [|e l]; [reflexivity|]. simpl in Hf.
    cbn [flat flat_map fst snd map]. fold (flat (groups fuel (drop_t (ev_t e) l))).
    rewrite IH by (pose proof (drop_t_length (ev_t e) l); lia).
    change (flat_map _ (groups fuel (drop_t (ev_t e) l))) with (flat (groups fuel (drop_t (ev_t e) l))).
    assert (E : map (fun p => mkEv (ev_t e) (fst p) (snd p)) (map pair_of (same_t (ev_t e) l))
                = same_t (ev_t e) l).
    { rewrite map_map. pose proof (same_t_all (ev_t e) l) as Ha.
      induction Ha as [|x l' Hx Hl IHl]; [reflexivity|].
      cbn [map]. f_equal; [|exact IHl]. rewrite <- Hx. destruct x; reflexivity. }
    rewrite E. simpl. rewrite same_drop. destruct e; reflexivity.
Qed.

(** ** Sorting of simultaneous events *)
Lemma of_type_In ty p l : In p (of_type ty l) <-> In p l /\ snd p = ty.
Proof. unfold of_type. rewrite filter_In, evtype_eqb_eq. tauto. Qed.

Lemma filter_perm_split {A} (f : A -> bool) l :
  Permutation (filter f l ++ filter (fun x => negb (f x)) l) l.
Proof.
  induction l as [|x l IH]; simpl; [constructor|].
  destruct (f x); simpl.
  - constructor; exact IH.
  - rewrite <- Permutation_middle. constructor; exact IH.
Qed.

Lemma filter_filter {A} (f g : A -> bool) l : filter f (filter g l) = filter (fun x => g x && f x) l.
Proof.
  induction l as [|x l IH]; simpl; [reflexivity|].
  destruct (g x); simpl; [|exact IH]. destruct (f x); simpl; congruence.
Qed.

(** Grouping a list by a classifier over a duplicate-free list of all classes
    is a permutation. *)
Lemma partition_perm {A K} (c : A -> K) (eqb : K -> K -> bool) keys l :
  (forall a b, eqb a b = true <-> a = b) ->
  NoDup keys -> (forall x, In x l -> In (c x) keys) ->
  Permutation (flat_map (fun k => filter (fun x => eqb (c x) k) l) keys) l.
Proof.
  intros Heq Hn. revert l; induction Hn as [|k keys Hk Hn IH]; intros l Hl; simpl.
  - destruct l as [|x l]; [constructor|]. destruct (Hl x (or_introl eq_refl)).
  - etransitivity; [|apply (filter_perm_split (fun x => eqb (c x) k) l)].
    apply Permutation_app_head.
    rewrite <- (IH (filter (fun x => negb (eqb (c x) k)) l)).
    2:{ intros x Hx. apply filter_In in Hx. destruct Hx as [Hx Hne].
        destruct (Hl x Hx) as [E|E]; [|exact E].
        exfalso. symmetry in E. apply Heq in E. rewrite E in Hne; discriminate. }
    clear IH Hl. induction keys as [|k' keys IHk]; simpl; [constructor|].
    apply Permutation_app.
    + rewrite filter_filter. erewrite filter_ext; [reflexivity|].
      intros x. simpl. destruct (eqb (c x) k') eqn:E; [|rewrite andb_false_r; reflexivity].
      rewrite andb_true_r. symmetry. apply negb_true_iff.
      destruct (eqb (c x) k) eqn:E2; [|reflexivity].
      apply Heq in E. apply Heq in E2. exfalso. apply Hk. left; congruence.
    + inversion Hn; subst. apply IHk; [intros Hin; apply Hk; right; exact Hin | assumption].
Qed.

Lemma flat_map_perm_ext {A B} (f g : A -> list B) l :
  (forall x, In x l -> Permutation (f x) (g x)) -> Permutation (flat_map f l) (flat_map g l).
Proof.
  induction l as [|x l IH]; intros H; simpl; [constructor|].
  apply Permutation_app; [apply H; left; reflexivity | apply IH; intros y Hy; apply H; right; exact Hy].
Qed.

Lemma evkeys_NoDup : NoDup evkeys.
Proof. unfold evkeys. repeat constructor; simpl; intuition discriminate. Qed.

Lemma evkeys_all ty : In ty evkeys.
Proof. destruct ty; simpl; tauto. Qed.

Lemma fc_sort_perm evs o : Permutation (sort_simultaneous_events evs false o) evs.
Proof.
  unfold sort_simultaneous_events.
  transitivity (flat_map (fun k => of_type k evs) evkeys).
  - apply flat_map_perm_ext. intros k _. apply isort_by_perm.
  - apply (partition_perm snd evtype_eqb).
    + apply evtype_eqb_eq.
    + apply evkeys_NoDup.
    + intros x _. apply evkeys_all.
Qed.

Lemma flat_map_concat_flat {A B} (f : A -> list B) (ls : list (list A)) :
  flat_map (fun l => flat_map f l) ls = flat_map f (concat ls).
Proof.
  induction ls as [|l ls IH]; simpl; [reflexivity|]. rewrite IH, flat_map_app. reflexivity.
Qed.

(** the order in which nodes are visited *)
Definition visit (o : ordering) : list nat := concat (map (isort_by Z.of_nat) o).

Lemma visit_perm o : Permutation (visit o) (concat o).
Proof.
  unfold visit. induction o as [|l o IH]; simpl; [constructor|].
  apply Permutation_app; [apply isort_by_perm | exact IH].
Qed.

Lemma compile_visit evs o :
  compile_indices evs o = flat_map (fun k => filter (fun e => Nat.eqb (fst e) k) evs) (visit o).
Proof.
  unfold compile_indices, visit.
  rewrite <- flat_map_concat_flat. rewrite flat_map_concat_map, flat_map_concat_map, map_map. reflexivity.
Qed.

Lemma concat_rev_perm {A} (o : list (list A)) : Permutation (concat (rev o)) (concat o).
Proof.
  induction o as [|l o IH]; simpl; [constructor|].
  rewrite concat_app. simpl. rewrite app_nil_r, IH. apply Permutation_app_comm.
Qed.

(** the ordering covers the nodes of the events exactly once *)
Definition covers (o : ordering) (evs : list (nat * evtype)) : Prop :=
  NoDup (concat o) /\ forall e, In e evs -> In (fst e) (concat o).

Lemma compile_perm evs o : covers o evs -> Permutation (compile_indices evs o) evs.
Proof.
  intros [Hn Hc]. rewrite compile_visit. apply (partition_perm fst Nat.eqb).
  - apply Nat.eqb_eq.
  - eapply Permutation_NoDup; [symmetry; apply visit_perm | exact Hn].
  - intros e He. eapply Permutation_in; [symmetry; apply visit_perm | apply Hc; exact He].
Qed.

Lemma covers_sub o evs evs' : covers o evs -> incl evs' evs -> covers o evs'.
Proof. intros [H1 H2] Hi; split; [exact H1|]. intros e He; apply H2, Hi, He. Qed.

Lemma covers_rev o evs : covers o evs -> covers (rev o) evs.
Proof.
  intros [H1 H2]; split.
  - eapply Permutation_NoDup; [symmetry; apply concat_rev_perm | exact H1].
  - intros e He. eapply Permutation_in; [symmetry; apply concat_rev_perm | apply H2; exact He].
Qed.

Lemma of_type_incl ty evs : incl (of_type ty evs) evs.
Proof. intros e He. apply of_type_In in He. tauto. Qed.

Lemma ti_sort_perm evs o : covers o evs -> Permutation (sort_simultaneous_events evs true o) evs.
Proof.
  intros Hc. unfold sort_simultaneous_events.
  transitivity (flat_map (fun k => of_type k evs) (filter is_ds evkeys)
                ++ flat_map (fun k => of_type k evs) (filter (fun k => negb (is_ds k)) evkeys)).
  - apply Permutation_app; apply flat_map_perm_ext; intros k _; apply compile_perm.
    + eapply covers_sub; [exact Hc | apply of_type_incl].
    + apply covers_rev. eapply covers_sub; [exact Hc | apply of_type_incl].
  - rewrite <- flat_map_app. apply (partition_perm snd evtype_eqb).
    + apply evtype_eqb_eq.
    + apply evkeys_NoDup.
    + intros x _. apply evkeys_all.
Qed.

(** ** From the loop to lists *)
Lemma order_groups_ok ti trI os st gs gs' :
  order_groups ti trI os st gs = Ok gs' ->
  Forall2 (fun g g' => fst g = fst g' /\
             exists o, (ti = true -> In o os) /\
                       snd g' = sort_simultaneous_events (snd g) ti o) gs gs'.
Proof.
  revert st gs'; induction gs as [|[t g] gs IH]; intros st gs' H; simpl in H.
  - inversion H; constructor.
  - destruct (bind_ok _ _ _ H) as [[st' o] [Ht H1]].
    destruct (bind_ok _ _ _ H1) as [rest [Hr H2]]. inversion H2; subst.
    constructor; [|eapply IH; exact Hr].
    simpl; split; [reflexivity|]. exists o; split; [|reflexivity].
    intros ->. unfold tree_step in Ht. destruct (bind_ok _ _ _ Ht) as [o' [Ho H3]].
    inversion H3; subst. unfold py_get in Ho.
    match type of Ho with (if ?c then _ else _) = _ => destruct c end; [|discriminate].
    apply get_ok in Ho. eapply nth_error_In; exact Ho.
Qed.

Lemma attach_t isseq n mf st gs : map in_t (attach isseq n mf st gs) = map fst gs.
Proof.
  revert st; induction gs as [|[t g] gs IH]; intros st; simpl; [reflexivity|].
  destruct (bypass_step isseq n mf st g) as [st' byp]. simpl. rewrite IH. reflexivity.
Qed.

Lemma attach_evs isseq n mf st gs : map in_evs (attach isseq n mf st gs) = map snd gs.
Proof.
  revert st; induction gs as [|[t g] gs IH]; intros st; simpl; [reflexivity|].
  destruct (bypass_step isseq n mf st g) as [st' byp]. simpl. rewrite IH. reflexivity.
Qed.

Lemma bypass_step_length isseq n mf st g :
  length (snd (bypass_step isseq n mf st g)) = length g.
Proof. unfold bypass_step. destruct (existsb is_up g); simpl; rewrite map_length; reflexivity. Qed.

Lemma attach_lengths isseq n mf st gs :
  Forall (fun i => length (in_byp i) = length (in_evs i)) (attach isseq n mf st gs).
Proof.
  revert st; induction gs as [|[t g] gs IH]; intros st; simpl; [constructor|].
  pose proof (bypass_step_length isseq n mf st g) as Hl.
  destruct (bypass_step isseq n mf st g) as [st' byp]. constructor; [exact Hl | apply IH].
Qed.

Lemma attach_In isseq n mf st gs t g :
  (exists i, In i (attach isseq n mf st gs) /\ in_t i = t /\ in_evs i = g) <-> In (t, g) gs.
Proof.
  revert st; induction gs as [|[t' g'] gs IH]; intros st; simpl.
  - split; [intros [i [[] _]] | tauto].
  - destruct (bypass_step isseq n mf st g') as [st' byp]. specialize (IH st').
    split.
    + intros [i [[<-|Hi] [H1 H2]]]; simpl in *; [left; congruence | right; apply IH; eauto].
    + intros [E|Hin].
      * inversion E; subst. eexists; split; [left; reflexivity | split; reflexivity].
      * apply IH in Hin. destruct Hin as [i [Hi He]]. exists i; split; [right; exact Hi | exact He].
Qed.

Lemma flatten_ok K ts ty evs :
  flatten_instants K ts ty = Ok evs ->
  NoDup evs /\
  forall e, In e evs <-> ev_type e = ty /\ (ev_node e < K)%nat /\ listed ts (ev_node e) (ev_t e).
Proof.
  unfold flatten_instants. destruct ts as [|t0 ts].
  { intros H; inversion H; subst. split; [constructor|]. intros e; split; [intros []|].
    intros [_ [_ [l [Hl _]]]]. destruct (ev_node e); discriminate. }
  remember (t0 :: ts) as T eqn:ET. clear ET.
  intros H. destruct (bind_ok _ _ _ H) as [rows [Hr H1]]. inversion H1; subst; clear H H1.
  assert (Hrow : forall i row, nth_error rows i = Some row -> (i < K)%nat /\
            exists tk, nth_error T i = Some tk /\ row = map (fun x => mkEv x i ty) (np_unique tk)).
  { intros i row Hi. destruct (mapM_nth_inv _ _ _ _ _ Hr Hi) as [k [Hk Hf]].
    assert (HiK : (i < K)%nat).
    { assert (i < length (seq 0 K))%nat by (apply nth_error_Some; congruence).
      rewrite seq_length in *; assumption. }
    assert (k = i).
    { rewrite (nth_error_nth' _ 0%nat) in Hk by (rewrite seq_length; exact HiK).
      rewrite seq_nth in Hk by exact HiK. simpl in Hk; congruence. }
    subst k. destruct (bind_ok _ _ _ Hf) as [tk [Htk H2]]. inversion H2; subst.
    split; [exact HiK|]. exists tk; split; [apply get_ok; exact Htk | reflexivity]. }
  split.
  - apply NoDup_concat.
    + intros l Hl. apply In_nth_error in Hl. destruct Hl as [i Hi].
      destruct (Hrow _ _ Hi) as [_ [tk [_ ->]]].
      apply NoDup_map_inj; [intros x y _ _ E; congruence | apply np_unique_NoDup].
    + intros i j l1 l2 x Hij Hi Hj H1 H2.
      destruct (Hrow _ _ Hi) as [_ [tk [_ ->]]]. destruct (Hrow _ _ Hj) as [_ [tk2 [_ ->]]].
      apply in_map_iff in H1. destruct H1 as [a [<- _]].
      apply in_map_iff in H2. destruct H2 as [b [E _]]. congruence.
  - intros e. rewrite in_concat. split.
    + intros [row [Hin He]]. apply In_nth_error in Hin. destruct Hin as [i Hi].
      destruct (Hrow _ _ Hi) as [HiK [tk [Htk ->]]].
      apply in_map_iff in He. destruct He as [x [<- Hx]]. simpl.
      repeat split; [exact HiK|]. exists tk; split; [exact Htk | apply np_unique_In; exact Hx].
    + intros [Hty [HK [l [Hl Ht]]]].
      assert (Hs : nth_error (seq 0 K) (ev_node e) = Some (ev_node e)).
      { rewrite (nth_error_nth' _ 0%nat) by (rewrite seq_length; exact HK).
        rewrite seq_nth by exact HK. reflexivity. }
      destruct (mapM_nth _ _ _ _ _ Hr Hs) as [row [Hrow' _]].
      exists row; split; [eapply nth_error_In; exact Hrow'|].
      destruct (Hrow _ _ Hrow') as [_ [tk [Htk ->]]].
      apply in_map_iff. exists (ev_t e). split.
      * destruct e; simpl in *; subst; reflexivity.
      * apply np_unique_In. congruence.
Qed.

Lemma flatten_total K ts ty :
  (ts = [] \/ (K <= length ts)%nat) -> exists evs, flatten_instants K ts ty = Ok evs.
Proof.
  intros H. unfold flatten_instants. destruct ts as [|t0 ts]; [eexists; reflexivity|].
  destruct (mapM_total (fun k => do tk <- get (t0 :: ts) k;
              Ok (map (fun x => mkEv x k ty) (np_unique tk))) (seq 0 K)) as [rows Hr].
  - intros k Hk. apply in_seq in Hk.
    destruct (get_lt (t0 :: ts) k) as [tk Htk]; [destruct H; [discriminate|lia]|].
    rewrite Htk. simpl. eexists; reflexivity.
  - rewrite Hr. simpl. eexists; reflexivity.
Qed.
