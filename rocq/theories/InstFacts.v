(** Lemmas about instants: alignment and sequential update instants. *)
From Verif Require Import Base BaseFacts Sched InstSpec.
Open Scope Z_scope.

Lemma amax_aux_spec l m : largest (m :: l) (amax_aux l m).
Proof.
  revert m; induction l as [|x l IH]; intros m; simpl.
  - split; [left; reflexivity|]. intros u [<-|[]]; lia.
  - destruct (IH (Z.max m x)) as [H1 H2]. split.
    + destruct H1 as [H1|H1]; [|right; right; exact H1].
      destruct (Z.max_spec m x) as [[_ E]|[_ E]]; rewrite E in H1 at 1;
        [right; left | left]; congruence.
    + intros u [<-|[<-|Hu]].
      * specialize (H2 (Z.max m x) (or_introl eq_refl)). lia.
      * specialize (H2 (Z.max m x) (or_introl eq_refl)). lia.
      * apply H2; right; exact Hu.
Qed.

Lemma amax_ok l m : amax l = Ok m <-> l <> [] /\ largest l m.
Proof.
  destruct l as [|x l]; simpl.
  - split; [discriminate | intros [H _]; congruence].
  - pose proof (amax_aux_spec l x) as HS. split.
    + intros H; inversion H; subst. split; [discriminate | exact HS].
    + intros [_ [H1 H2]]. f_equal. destruct HS as [S1 S2].
      specialize (H2 _ S1). specialize (S2 _ H1). lia.
Qed.

Lemma first_after l c :
  StronglySorted Z.le l -> (exists u, In u l /\ c < u) ->
  exists t, get (filter (fun x => c <? x) l) 0 = Ok t /\ earliest_after l c t.
Proof.
  intros Hs [u [Hu Hc]]. induction Hs as [|x l Hs IH Hf]; [destruct Hu|].
  simpl. destruct (Z.ltb_spec c x) as [L|L].
  - exists x. split; [reflexivity|]. split; [left; reflexivity|]. split; [exact L|].
    intros v [<-|Hv] _; [lia|]. rewrite Forall_forall in Hf. apply Hf; exact Hv.
  - destruct Hu as [<-|Hu]; [lia|]. destruct (IH Hu) as [t [Ht [E1 [E2 E3]]]].
    exists t. split; [exact Ht|]. split; [right; exact E1|]. split; [exact E2|].
    intros v [<-|Hv] Hcv; [lia|]. apply E3; assumption.
Qed.

Definition cyc (start len n : nat) : list nat := map (fun i => (start + i) mod n)%nat (seq 0 len).

Lemma cyc_S start len n : cyc start (S len) n = (start mod n)%nat :: cyc (S start) len n.
Proof.
  unfold cyc. cbn [seq map]. rewrite Nat.add_0_r. f_equal.
  rewrite <- seq_shift, map_map. apply map_ext. intros i. f_equal. lia.
Qed.

Lemma mod_S_mod a n : (n <> 0)%nat -> (S (a mod n) mod n = S a mod n)%nat.
Proof. intros H. rewrite <- (Nat.add_1_l (a mod n)), Nat.add_mod_idemp_r by exact H. reflexivity. Qed.

(** how the chain may end *)
Definition chain_end (up : list (list Z)) (start : nat) (c : Z) (ts : list Z) (nix : nat) : Prop :=
  exists l, nth_error up ((start + (nix - 1)) mod length up)%nat = Some l /\
  ((nix = length ts /\ largest l (last ts c)) \/
   (nix = S (length ts) /\ (forall u, In u l -> u <= last ts c) /\
    (ts <> [] -> exists l' u, In l' up /\ In u l' /\ last ts c < u))).

Lemma last_cons_default {A} (x d d' : A) l : last (x :: l) d = last (x :: l) d'.
Proof. revert x; induction l as [|y l IH]; intros x; [reflexivity|]. simpl in *. apply IH. Qed.

Lemma last_cons {A} (x d : A) l : last (x :: l) d = last l x.
Proof.
  destruct l as [|y l]; [reflexivity|]. change (last (x :: y :: l) d) with (last (y :: l) d).
  apply last_cons_default.
Qed.

Lemma count_lt (l : list Z) c t :
  In t l -> c < t -> (length (filter (fun x => (t <? x)%Z) l) < length (filter (fun x => (c <? x)%Z) l))%nat.
Proof.
  intros Hin Hc. induction l as [|x l IH]; [destruct Hin|]. simpl.
  assert (Hle : forall l, (length (filter (fun x => (t <? x)%Z) l) <= length (filter (fun x => (c <? x)%Z) l))%nat).
  { clear -Hc. induction l as [|y l IH]; simpl; [lia|].
    destruct (Z.ltb_spec t y), (Z.ltb_spec c y); simpl; lia. }
  destruct Hin as [<-|Hin].
  - destruct (Z.ltb_spec x x), (Z.ltb_spec c x); simpl; try lia. specialize (Hle l). lia.
  - specialize (IH Hin). destruct (Z.ltb_spec t x), (Z.ltb_spec c x); simpl; lia.
Qed.

Lemma seq_up_loop_spec up :
  (0 < length up)%nat ->
  (forall l, In l up -> l <> [] /\ StronglySorted Z.le l) ->
  forall fuel c node accT accN,
  (length (filter (fun x => (c <? x)%Z) (concat up)) < fuel)%nat ->
  exists ts ix,
    seq_up_loop fuel up c (node mod length up) accT accN = Ok (accT ++ ts, accN ++ ix) /\
    cyclic_chain up node c ts /\
    ix = cyc (S node) (length ix) (length up) /\
    chain_end up node c ts (S (length ix)).
Proof.
  intros Hn Hup. induction fuel as [|fuel IH]; intros c node accT accN Hf; [lia|].
  cbn [seq_up_loop].
  assert (Hnm : (node mod length up < length up)%nat) by (apply Nat.mod_upper_bound; lia).
  destruct (nth_error up (node mod length up)) as [l|] eqn:El.
  2:{ apply nth_error_None in El; lia. }
  rewrite (get_some _ _ _ El). cbn [bind].
  destruct (Hup l (nth_error_In _ _ El)) as [Hne Hs].
  destruct (amax l) as [m|e] eqn:Em.
  2:{ destruct l; [congruence | discriminate]. }
  apply amax_ok in Em. destruct Em as [_ [Hm1 Hm2]]. cbn [bind].
  destruct (Z.ltb_spec c m) as [L|L].
  - destruct (first_after l c Hs (ex_intro _ m (conj Hm1 L))) as [t [Ht He]].
    rewrite Ht. cbn [bind]. destruct He as [Ht1 [Ht2 Ht3]].
    assert (Hcat : In t (concat up)) by (apply in_concat; exists l; split; [eapply nth_error_In; exact El | exact Ht1]).
    pose proof (count_lt _ _ _ Hcat Ht2) as Hlt.
    destruct (Z.ltb_spec t m) as [L2|L2].
    + rewrite mod_S_mod by lia.
      destruct (IH t (S node) (accT ++ [t]) (accN ++ [(S node mod length up)%nat])) as [ts [ix [E [C [I X]]]]]; [lia|].
      exists (t :: ts), ((S node mod length up)%nat :: ix). split; [|split; [|split]].
      * rewrite E. rewrite <- !app_assoc. reflexivity.
      * cbn [cyclic_chain]. split; [exists l; split; [exact El | repeat split; assumption] | exact C].
      * cbn [length]. rewrite cyc_S. f_equal. exact I.
      * destruct X as [l' [Hl' HX]]. exists l'. cbn [length] in *.
        replace (node + (S (S (length ix)) - 1))%nat with (S node + (S (length ix) - 1))%nat by lia.
        split; [exact Hl'|]. rewrite last_cons.
        destruct HX as [[X1 X2]|[X1 [X2 X3]]]; [left; split; [lia | exact X2] | right].
        split; [lia|]. split; [exact X2|]. intros _.
        destruct ts as [|t' ts']; [|apply X3; discriminate].
        exists l, m. split; [eapply nth_error_In; exact El | split; [exact Hm1 | exact L2]].
    + assert (Etm : t = m) by (specialize (Hm2 _ Ht1); lia). subst t.
      destruct fuel as [|fuel]; [lia|]. cbn [seq_up_loop]. rewrite (get_some _ _ _ El). cbn [bind].
      assert (Em : amax l = Ok m) by (apply amax_ok; split; [exact Hne | split; assumption]).
      rewrite Em. cbn [bind]. rewrite Z.ltb_irrefl.
      exists [m], []. split; [|split; [|split]].
      * rewrite app_nil_r. reflexivity.
      * cbn [cyclic_chain]. split; [exists l; split; [exact El | repeat split; assumption] | exact I].
      * reflexivity.
      * exists l. cbn [length last]. replace (node + (1 - 1))%nat with node by lia.
        split; [exact El|]. left. split; [reflexivity | split; assumption].
  - exists [], []. split; [|split; [|split]].
    + rewrite !app_nil_r. reflexivity.
    + exact I.
    + reflexivity.
    + exists l. cbn [length last]. replace (node + (1 - 1))%nat with node by lia.
      split; [exact El|]. right. split; [reflexivity|]. split; [|congruence]. intros u Hu. specialize (Hm2 _ Hu). lia.
Qed.

Lemma seq_up_spec up start :
  (start < length up)%nat ->
  (forall l, In l up -> l <> [] /\ StronglySorted Z.le l) ->
  exists ts ix,
    get_sequential_update_instants up start = Ok (ts, ix) /\
    cyclic_chain up start 0 ts /\
    ix = cyc start (length ix) (length up) /\
    chain_end up start 0 ts (length ix).
Proof.
  intros Hst Hup. unfold get_sequential_update_instants.
  destruct (seq_up_loop_spec up ltac:(lia) Hup (S (total_len up)) 0 start [] [start]) as [ts [ix [E [C [I X]]]]].
  - unfold total_len. pose proof (filter_length_le (fun x => 0 <? x) (concat up)). lia.
  - rewrite Nat.mod_small in E by exact Hst. exists ts, (start :: ix).
    split; [exact E|]. split; [exact C|]. split; [|exact X].
    cbn [length]. rewrite cyc_S, Nat.mod_small by exact Hst. f_equal. exact I.
Qed.

Lemma chain_increasing up node c ts :
  cyclic_chain up node c ts -> StronglySorted Z.lt (c :: ts).
Proof.
  revert node c; induction ts as [|t ts IH]; intros node c H.
  - constructor; constructor.
  - destruct H as [[l [_ [_ [Hc _]]]] H]. specialize (IH _ _ H).
    constructor; [exact IH|]. constructor; [exact Hc|].
    inversion IH as [|? ? _ Hf]; subst. eapply Forall_impl; [|exact Hf]. simpl; intros; lia.
Qed.

Lemma chain_nth up node c ts i t :
  cyclic_chain up node c ts -> nth_error ts i = Some t ->
  exists l, nth_error up ((node + i) mod length up)%nat = Some l /\
            earliest_after l (last (firstn i ts) c) t.
Proof.
  revert node c i; induction ts as [|t0 ts IH]; intros node c i H Hi; [destruct i; discriminate|].
  destruct H as [[l [Hl He]] H]. destruct i as [|i]; cbn [nth_error] in Hi.
  - inversion Hi; subst. exists l. rewrite Nat.add_0_r. split; [exact Hl | exact He].
  - destruct (IH _ _ _ H Hi) as [l' [Hl' He']]. exists l'.
    replace (node + S i)%nat with (S node + i)%nat by lia. split; [exact Hl'|].
    cbn [firstn]. rewrite last_cons. exact He'.
Qed.

(** alignment *)
Lemma py_get_last {A} (l : list A) : l <> [] -> exists x, py_get l (-1) = Ok x /\ exists l', l = l' ++ [x].
Proof.
  intros H. destruct (exists_last H) as [l' [x ->]]. exists x. split; [|eauto].
  unfold py_get. rewrite app_length. simpl length.
  replace (if -1 <? 0 then -1 + Z.of_nat (length l' + 1) else -1) with (Z.of_nat (length l')) by (simpl; lia).
  destruct (Z.leb_spec 0 (Z.of_nat (length l'))); [|lia].
  destruct (Z.ltb_spec (Z.of_nat (length l')) (Z.of_nat (length l' + 1))); [|lia].
  simpl. rewrite Nat2Z.id. apply get_some. rewrite nth_error_app2 by lia. rewrite Nat.sub_diag. reflexivity.
Qed.

Lemma sorted_last_max l x : StronglySorted Z.lt (l ++ [x]) -> forall u, In u (l ++ [x]) -> u <= x.
Proof.
  intros H u Hu. apply StronglySorted_app in H. destruct H as [_ [_ H]].
  apply in_app_or in Hu. destruct Hu as [Hu|[<-|[]]]; [|lia].
  specialize (H u x Hu (or_introl eq_refl)). lia.
Qed.

Lemma align_future_spec ts x :
  StronglySorted Z.lt ts -> ts <> [] ->
  exists r, align_future ts x = Ok r /\ In r ts /\
    ((exists u, In u ts /\ x <= u) -> next_sample ts x r) /\
    ((forall u, In u ts -> u < x) -> largest ts r).
Proof.
  intros Hs Hne. unfold align_future. destruct (memZ x ts) eqn:Em.
  - apply memZ_In in Em. exists x. split; [reflexivity|]. split; [exact Em|]. split.
    + intros _. split; [exact Em|]. split; [lia|]. auto.
    + intros H. specialize (H _ Em). lia.
  - apply memZ_notIn in Em. destruct (filter (fun u => x <? u) ts) as [|u l] eqn:EF.
    + assert (Hno : forall u, In u ts -> u < x).
      { intros u Hu. destruct (Z.lt_trichotomy u x) as [L|[->|L]]; [exact L | contradiction |].
        assert (Hin : In u (filter (fun u => x <? u) ts)) by (apply filter_In; split; [exact Hu | lia]).
        rewrite EF in Hin. destruct Hin. }
      destruct (py_get_last ts Hne) as [r [Hr [l' ->]]]. exists r. split; [exact Hr|].
      split; [apply in_or_app; right; left; reflexivity|]. split.
      * intros [u [Hu Hx]]. specialize (Hno _ Hu). lia.
      * intros _. split; [apply in_or_app; right; left; reflexivity|]. apply sorted_last_max; exact Hs.
    + exists u. assert (Hin : In u (filter (fun u => x <? u) ts)) by (rewrite EF; left; reflexivity).
      apply filter_In in Hin. destruct Hin as [Hin Hx].
      split; [reflexivity|]. split; [exact Hin|]. split.
      * intros _. split; [exact Hin|]. split; [lia|]. intros v Hv Hxv.
        assert (Hxv' : x < v) by (destruct (Z.eq_dec x v); [subst; contradiction | lia]).
        assert (Hvf : In v (u :: l)) by (rewrite <- EF; apply filter_In; split; [exact Hv | lia]).
        destruct Hvf as [<-|Hvl]; [lia|].
        assert (Hsf : StronglySorted Z.lt (u :: l)) by (rewrite <- EF; apply StronglySorted_filter; exact Hs).
        inversion Hsf as [|? ? _ Hff]; subst. rewrite Forall_forall in Hff. specialize (Hff _ Hvl). lia.
      * intros H. specialize (H _ Hin). lia.
Qed.

Lemma py_get_last_in {A} (l : list A) x : py_get l (-1) = Ok x -> exists l', l = l' ++ [x].
Proof.
  intros H. destruct l as [|a l]; [discriminate|].
  destruct (py_get_last (a :: l) ltac:(discriminate)) as [y [Hy [l' E]]].
  exists l'. congruence.
Qed.

Lemma align_past_spec poss x :
  StronglySorted Z.lt poss -> poss <> [] ->
  exists r, align_past poss x = Ok r /\ In r poss /\
    ((exists u, In u poss /\ u <= x) -> prev_sample poss x r) /\
    ((forall u, In u poss -> x < u) -> forall u, In u poss -> r <= u).
Proof.
  intros Hs Hne. unfold align_past. destruct (memZ x poss) eqn:Em.
  - apply memZ_In in Em. exists x. split; [reflexivity|]. split; [exact Em|]. split.
    + intros _. split; [exact Em|]. split; [lia|]. auto.
    + intros H. specialize (H _ Em). lia.
  - apply memZ_notIn in Em. destruct (filter (fun u => u <? x) poss) as [|u l] eqn:EF.
    + assert (Hno : forall u, In u poss -> x < u).
      { intros u Hu. destruct (Z.lt_trichotomy u x) as [L|[->|L]]; [ | contradiction | exact L].
        assert (Hin : In u (filter (fun u => u <? x) poss)) by (apply filter_In; split; [exact Hu | lia]).
        rewrite EF in Hin. destruct Hin. }
      destruct poss as [|r poss]; [congruence|]. exists r. split; [reflexivity|]. split; [left; reflexivity|]. split.
      * intros [u [Hu Hx]]. specialize (Hno _ Hu). lia.
      * intros _ u [<-|Hu]; [lia|]. inversion Hs as [|? ? _ Hf]; subst. rewrite Forall_forall in Hf. specialize (Hf _ Hu). lia.
    + destruct (py_get_last (u :: l) ltac:(discriminate)) as [r [Hr [l' El]]].
      exists r. split; [exact Hr|].
      assert (Hin : In r (filter (fun u => u <? x) poss)) by (rewrite EF, El; apply in_or_app; right; left; reflexivity).
      apply filter_In in Hin. destruct Hin as [Hin Hx]. split; [exact Hin|]. split.
      * intros _. split; [exact Hin|]. split; [lia|]. intros v Hv Hvx.
        assert (Hvx' : v < x) by (destruct (Z.eq_dec x v); [subst; contradiction | lia]).
        assert (Hvf : In v (l' ++ [r])) by (rewrite <- El, <- EF; apply filter_In; split; [exact Hv | lia]).
        assert (Hsf : StronglySorted Z.lt (l' ++ [r])) by (rewrite <- El, <- EF; apply StronglySorted_filter; exact Hs).
        apply (sorted_last_max _ _ Hsf); exact Hvf.
      * intros H. specialize (H _ Hin). lia.
Qed.

(** step slices *)
Lemma every_aux_nth {A} (L : nat) : (0 < L)%nat -> forall fuel (l : list A) i,
  (length l <= fuel)%nat -> nth_error (every_aux fuel L l) i = nth_error l (L * i).
Proof.
  intros HL. induction fuel as [|fuel IH]; intros l i Hf.
  - destruct l; [|simpl in Hf; lia]. simpl. destruct i; destruct (L * _)%nat; reflexivity.
  - destruct l as [|x l]; simpl every_aux; [destruct i; destruct (L * _)%nat; reflexivity|].
    destruct i as [|i]; cbn [nth_error].
    + rewrite Nat.mul_0_r. reflexivity.
    + rewrite IH.
      * rewrite nth_error_skipn. f_equal. lia.
      * rewrite skipn_length. cbn [length] in *. lia.
Qed.

Lemma step_slice_nth {A} (L : nat) (l : list A) i :
  (0 < L)%nat -> nth_error (step_slice L l) i = nth_error l (L * S i).
Proof.
  intros HL. unfold step_slice. rewrite every_aux_nth; [|exact HL | rewrite skipn_length; lia].
  rewrite nth_error_skipn. f_equal. lia.
Qed.

Lemma sorted_of_nth (l : list Z) :
  (forall i j x y, (i < j)%nat -> nth_error l i = Some x -> nth_error l j = Some y -> x < y) ->
  StronglySorted Z.lt l.
Proof.
  induction l as [|a l IH]; intros H; constructor.
  - apply IH. intros i j x y Hij Hi Hj. apply (H (S i) (S j)); [lia | exact Hi | exact Hj].
  - apply Forall_forall. intros y Hy. apply In_nth_error in Hy. destruct Hy as [j Hj].
    apply (H 0%nat (S j)); [lia | reflexivity | exact Hj].
Qed.

Lemma step_slice_sorted L l : (0 < L)%nat -> StronglySorted Z.lt l -> StronglySorted Z.lt (step_slice L l).
Proof.
  intros HL Hs. apply sorted_of_nth. intros i j x y Hij Hi Hj.
  rewrite step_slice_nth in Hi, Hj by exact HL.
  eapply (StronglySorted_nth _ _ (L * S i) (L * S j)); [exact Hs | nia | exact Hi | exact Hj].
Qed.

Lemma step_slice_In {A} L (l : list A) x :
  (0 < L)%nat -> (In x (step_slice L l) <-> exists i, nth_error l (L * S i) = Some x).
Proof.
  intros HL. split.
  - intros H. apply In_nth_error in H. destruct H as [i Hi]. rewrite step_slice_nth in Hi by exact HL. eauto.
  - intros [i Hi]. rewrite <- step_slice_nth in Hi by exact HL. eapply nth_error_In; exact Hi.
Qed.

(** union of the neighbours' instants *)
Lemma dedup_fold_spec l acc :
  NoDup acc ->
  NoDup (fold_left (fun acc x => if memZ x acc then acc else acc ++ [x]) l acc) /\
  forall x, In x (fold_left (fun acc x => if memZ x acc then acc else acc ++ [x]) l acc) <-> In x acc \/ In x l.
Proof.
  revert acc; induction l as [|y l IH]; intros acc Ha; simpl; [split; [exact Ha | intros x; tauto]|].
  destruct (memZ y acc) eqn:E.
  - destruct (IH acc Ha) as [H1 H2]. split; [exact H1|]. intros x. rewrite H2. apply memZ_In in E.
    split; [tauto|]. intros [H|[<-|H]]; auto.
  - apply memZ_notIn in E. destruct (IH (acc ++ [y])) as [H1 H2].
    + apply NoDup_app; [exact Ha | repeat constructor; simpl; tauto |]. intros x Hx [<-|[]]. contradiction.
    + split; [exact H1|]. intros x. rewrite H2, in_app_iff. simpl. tauto.
Qed.

Lemma union_up_spec up ns u :
  union_up up ns = Ok u ->
  StronglySorted Z.lt u /\
  forall x, In x u <-> exists q l, In q ns /\ nth_error up q = Some l /\ In x l.
Proof.
  intros H. destruct (bind_ok _ _ _ H) as [ls [Hls H1]]. inversion H1; subst; clear H H1.
  destruct (dedup_fold_spec (concat ls) [] ltac:(constructor)) as [Hn Hin].
  split.
  - apply sorted_nodup_lt; [apply isort_by_sorted|].
    eapply Permutation_NoDup; [symmetry; apply isort_by_perm | exact Hn].
  - intros x. rewrite isort_by_In, Hin. simpl. rewrite in_concat. split.
    + intros [[]|[l [Hl Hx]]]. destruct (mapM_In _ _ _ _ Hls Hl) as [q [Hq Hg]].
      apply get_ok in Hg. eauto.
    + intros [q [l [Hq [Hl Hx]]]]. right. apply In_nth_error in Hq. destruct Hq as [i Hi].
      destruct (mapM_nth _ _ _ _ _ Hls Hi) as [y [Hy Hg]]. apply get_ok in Hg.
      exists y. split; [eapply nth_error_In; exact Hy|]. congruence.
Qed.

(** Partial-correctness version: no assumption that every list is non-empty. *)
Lemma seq_up_loop_inv up :
  (0 < length up)%nat ->
  (forall l, In l up -> StronglySorted Z.le l) ->
  forall fuel c node accT accN T N,
  seq_up_loop fuel up c (node mod length up) accT accN = Ok (T, N) ->
  exists ts ix,
    T = accT ++ ts /\ N = accN ++ ix /\
    cyclic_chain up node c ts /\
    ix = cyc (S node) (length ix) (length up) /\
    chain_end up node c ts (S (length ix)).
Proof.
  intros Hn Hup. induction fuel as [|fuel IH]; intros c node accT accN T N H; [discriminate|].
  cbn [seq_up_loop] in H.
  destruct (bind_ok _ _ _ H) as [l [El H1]]. destruct (bind_ok _ _ _ H1) as [m [Em H2]]. clear H H1.
  apply get_ok in El. assert (Hs := Hup l (nth_error_In _ _ El)).
  assert (Em' := Em). apply amax_ok in Em. destruct Em as [Hne [Hm1 Hm2]].
  destruct (Z.ltb_spec c m) as [L|L].
  - destruct (first_after l c Hs (ex_intro _ m (conj Hm1 L))) as [t [Ht He]].
    rewrite Ht in H2. cbn [bind] in H2. destruct He as [Ht1 [Ht2 Ht3]].
    destruct (Z.ltb_spec t m) as [L2|L2].
    + rewrite mod_S_mod in H2 by lia.
      destruct (IH _ _ _ _ _ _ H2) as [ts [ix [ET [EN [C [I X]]]]]].
      exists (t :: ts), ((S node mod length up)%nat :: ix). split; [|split; [|split; [|split]]].
      * rewrite ET, <- app_assoc. reflexivity.
      * rewrite EN, <- app_assoc. reflexivity.
      * cbn [cyclic_chain]. split; [exists l; split; [exact El | repeat split; assumption] | exact C].
      * cbn [length]. rewrite cyc_S. f_equal. exact I.
      * destruct X as [l' [Hl' HX]]. exists l'. cbn [length] in *.
        replace (node + (S (S (length ix)) - 1))%nat with (S node + (S (length ix) - 1))%nat by lia.
        split; [exact Hl'|]. rewrite last_cons.
        destruct HX as [[X1 X2]|[X1 [X2 X3]]]; [left; split; [lia | exact X2] | right].
        split; [lia|]. split; [exact X2|]. intros _.
        destruct ts as [|t' ts']; [|apply X3; discriminate].
        exists l, m. split; [eapply nth_error_In; exact El | split; [exact Hm1 | exact L2]].
    + assert (Etm : t = m) by (specialize (Hm2 _ Ht1); lia). subst t.
      destruct fuel as [|fuel]; [discriminate|]. cbn [seq_up_loop] in H2.
      rewrite (get_some _ _ _ El) in H2. cbn [bind] in H2.
      rewrite Em' in H2. cbn [bind] in H2. rewrite Z.ltb_irrefl in H2. inversion H2; subst.
      exists [m], []. split; [|split; [|split; [|split]]].
      * reflexivity.
      * rewrite app_nil_r. reflexivity.
      * cbn [cyclic_chain]. split; [exists l; split; [exact El | repeat split; assumption] | exact I].
      * reflexivity.
      * exists l. cbn [length last]. replace (node + (1 - 1))%nat with node by lia.
        split; [exact El|]. left. split; [reflexivity | split; assumption].
  - inversion H2; subst. exists [], []. split; [|split; [|split; [|split]]].
    + rewrite app_nil_r. reflexivity.
    + rewrite app_nil_r. reflexivity.
    + exact I.
    + reflexivity.
    + exists l. cbn [length last]. replace (node + (1 - 1))%nat with node by lia.
      split; [exact El|]. right. split; [reflexivity|]. split; [|congruence]. intros u Hu. specialize (Hm2 _ Hu). lia.
Qed.

Lemma seq_up_inv up start ts ix :
  (start < length up)%nat ->
  (forall l, In l up -> StronglySorted Z.le l) ->
  get_sequential_update_instants up start = Ok (ts, ix) ->
  cyclic_chain up start 0 ts /\
  ix = cyc start (length ix) (length up) /\
  chain_end up start 0 ts (length ix).
Proof.
  intros Hst Hup H. unfold get_sequential_update_instants in H.
  rewrite <- (Nat.mod_small start (length up)) in H at 1 by exact Hst.
  destruct (seq_up_loop_inv up ltac:(lia) Hup _ _ _ _ _ _ _ H) as [ts' [ix' [ET [EN [C [I X]]]]]].
  simpl in ET, EN. subst. split; [exact C|]. split; [|exact X].
  cbn [length]. rewrite cyc_S, Nat.mod_small by exact Hst. f_equal. exact I.
Qed.

(** The loop always ends, whatever the instants. *)
Lemma filter_first_in (l : list Z) c t :
  get (filter (fun x => c <? x) l) 0 = Ok t -> In t l /\ c < t.
Proof.
  intros H. apply get_ok in H. apply nth_error_In in H. apply filter_In in H. destruct H; split; [assumption | lia].
Qed.

Lemma seq_up_loop_fuel up fuel c node accT accN :
  (length (filter (fun x => (c <? x)%Z) (concat up)) < fuel)%nat ->
  seq_up_loop fuel up c node accT accN <> Err OutOfFuel.
Proof.
  revert c node accT accN; induction fuel as [|fuel IH]; intros c node accT accN Hf; [lia|].
  cbn [seq_up_loop]. unfold get at 1. destruct (nth_error up node) as [l|] eqn:El; [|discriminate].
  cbn [bind]. destruct (amax l) as [m|e] eqn:Em; [|destruct l; simpl in Em; [inversion Em; discriminate | discriminate]].
  cbn [bind]. destruct (c <? m); [|discriminate].
  destruct (get (filter (fun x => c <? x) l) 0) as [t|e] eqn:Eg.
  2:{ unfold get in Eg. destruct (nth_error _ 0); [discriminate|]. inversion Eg; discriminate. }
  cbn [bind]. destruct (filter_first_in _ _ _ Eg) as [Hin Hlt].
  assert (Hcat : In t (concat up)) by (apply in_concat; exists l; split; [eapply nth_error_In; exact El | exact Hin]).
  pose proof (count_lt _ _ _ Hcat Hlt).
  destruct (t <? m); apply IH; lia.
Qed.

Lemma seq_up_terminates up start : get_sequential_update_instants up start <> Err OutOfFuel.
Proof.
  apply seq_up_loop_fuel. unfold total_len. pose proof (filter_length_le (fun x => 0 <? x) (concat up)). lia.
Qed.

(** ** Preparation *)
Definition good_node (nd : snode) : Prop :=
  StronglySorted Z.lt (stamps nd) /\ 0 < period nd.

Lemma arange_In s0 sep stop x :
  0 < sep -> In x (arange_samples s0 sep stop) -> s0 <= x /\ x < stop * sep.
Proof.
  intros Hsep H. unfold arange_samples in H. apply in_map_iff in H. destruct H as [i [<- Hi]].
  apply in_seq in Hi. split; [nia|].
  set (q := (stop * sep - s0 + (sep - 1)) / sep) in *.
  assert (Hq : sep * q <= stop * sep - s0 + (sep - 1)) by (apply Z.mul_div_le; exact Hsep).
  assert (Z.of_nat i + 1 <= q) by lia. nia.
Qed.

Lemma arange_sorted s0 sep stop : 0 < sep -> StronglySorted Z.lt (arange_samples s0 sep stop).
Proof.
  intros Hsep. unfold arange_samples. apply sorted_of_nth. intros i j x y Hij Hi Hj.
  rewrite nth_error_map in Hi, Hj.
  destruct (nth_error (seq 0 _) i) as [a|] eqn:Ea; [|discriminate].
  destruct (nth_error (seq 0 _) j) as [b|] eqn:Eb; [|discriminate]. simpl in *.
  assert (Ha : a = i).
  { assert (Hl : (i < length (seq 0 (Z.to_nat (Z.max 0 ((stop * sep - s0 + (sep - 1)) / sep)))))%nat) by (apply nth_error_Some; congruence).
    rewrite seq_length in Hl. rewrite (nth_error_nth' _ 0%nat) in Ea by (rewrite seq_length; exact Hl). rewrite seq_nth in Ea by exact Hl. simpl in Ea; congruence. }
  assert (Hb : b = j).
  { assert (Hl : (j < length (seq 0 (Z.to_nat (Z.max 0 ((stop * sep - s0 + (sep - 1)) / sep)))))%nat) by (apply nth_error_Some; congruence).
    rewrite seq_length in Hl. rewrite (nth_error_nth' _ 0%nat) in Eb by (rewrite seq_length; exact Hl). rewrite seq_nth in Eb by exact Hl. simpl in Eb; congruence. }
  inversion Hi; inversion Hj; subst. nia.
Qed.

(** Aligned instants of a node, as long as the nominal instants lie before the
    end of the recording. *)
Lemma aligned_of_spec nd s0 sep n l last_t :
  good_node nd -> 0 < sep -> py_get (stamps nd) (-1) = Ok last_t ->
  n * sep * period nd <= last_t ->
  aligned_of nd s0 sep n = Ok l ->
  Forall2 (fun s t => next_sample (stamps nd) (s * period nd) t) (arange_samples s0 sep n) l /\
  StronglySorted Z.le l.
Proof.
  intros [Hs Hp] Hsep Hlast Hn H. unfold aligned_of, align_instants in H.
  destruct (py_get_last_in _ _ Hlast) as [l' El].
  assert (Hne : stamps nd <> []) by (rewrite El; destruct l'; discriminate).
  rewrite mapM_map in H. apply mapM_ok in H.
  assert (HF : Forall2 (fun s t => next_sample (stamps nd) (s * period nd) t) (arange_samples s0 sep n) l).
  { assert (Hb : forall s, In s (arange_samples s0 sep n) -> s < n * sep) by (intros s Hs'; eapply arange_In; eauto).
    revert H Hb. generalize (arange_samples s0 sep n). intros ss H Hb. induction H as [|s t ss ll Hst Hl IH]; constructor.
    - destruct (align_future_spec (stamps nd) (s * period nd) Hs Hne) as [r [Hr [_ [Hnext _]]]].
      assert (r = t) by congruence. subst r. apply Hnext. exists last_t. split.
      + rewrite El. apply in_or_app; right; left; reflexivity.
      + specialize (Hb s (or_introl eq_refl)). nia.
    - apply IH. intros u Hu; apply Hb; right; exact Hu. }
  split; [exact HF|].
  pose proof (arange_sorted s0 sep n Hsep) as Ha. revert HF Ha. generalize (arange_samples s0 sep n). intros ss HF Ha. clear H.
  induction HF as [|s t ss ll Hst Hl IH]; constructor.
  - apply IH. inversion Ha; assumption.
  - inversion Ha as [|? ? Ha' Hf]; subst. apply Forall_forall. intros u Hu.
    assert (exists s', In s' ss /\ next_sample (stamps nd) (s' * period nd) u) as [s' [Hs' Hn']].
    { clear -Hl Hu. induction Hl as [|a b ss ll Hab Hl IH]; [destruct Hu|]. destruct Hu as [<-|Hu].
      - exists a; split; [left; reflexivity | exact Hab].
      - destruct (IH Hu) as [s' [H1 H2]]. exists s'; split; [right; exact H1 | exact H2]. }
    rewrite Forall_forall in Hf. specialize (Hf _ Hs').
    destruct Hst as [_ [_ Hmin]]. destruct Hn' as [Hin [Hge _]]. apply Hmin; [exact Hin | nia].
Qed.

Lemma num_in_total_spec nd len n :
  0 < period nd -> 0 < len -> num_in_total nd len = Ok n ->
  exists last_t, py_get (stamps nd) (-1) = Ok last_t /\ n * len * period nd <= last_t /\ n = last_t / (period nd * len).
Proof.
  intros Hp Hl H. destruct (bind_ok _ _ _ H) as [t [Ht E]]. inversion E; subst. exists t.
  split; [exact Ht|]. split; [|reflexivity].
  pose proof (Z.mul_div_le t (period nd * len) ltac:(nia)). nia.
Qed.

Definition good_params (p : sparams) : Prop := 0 < p_N p /\ 0 < p_Ns p /\ 0 < p_L p.

Lemma cdiv_pos a b : 0 < a -> 0 < b -> 0 < cdiv a b.
Proof. intros Ha Hb. unfold cdiv. apply Z.div_str_pos. lia. Qed.

Lemma up_of_spec p nd l :
  good_params p -> good_node nd -> up_of p nd = Ok l ->
  StronglySorted Z.le l /\ (forall t, In t l -> 0 < t /\ In t (stamps nd)).
Proof.
  intros [HN [HNs HL]] Hnd H. unfold up_of in H. destruct (bind_ok _ _ _ H) as [n [Hn H1]].
  destruct (num_in_total_spec _ _ _ (proj2 Hnd) HNs Hn) as [lt [Hlt [Hle _]]].
  set (s0 := cdiv ((if p_ti p && p_whole p then 2 else 1) * p_N p) (p_Ns p) * p_Ns p) in *.
  destruct (aligned_of_spec nd s0 (p_Ns p) n l lt Hnd HNs Hlt Hle H1) as [HF Hs].
  split; [exact Hs|]. intros t Ht.
  assert (Hs0 : 0 < s0).
  { unfold s0. assert (0 < cdiv ((if p_ti p && p_whole p then 2 else 1) * p_N p) (p_Ns p)).
    { apply cdiv_pos; [|exact HNs]. destruct (p_ti p && p_whole p); lia. } nia. }
  assert (exists s, In s (arange_samples s0 (p_Ns p) n) /\ next_sample (stamps nd) (s * period nd) t) as [s [Hin Hnx]].
  { clear -HF Ht. induction HF as [|a b ss ll Hab Hl IH]; [destruct Ht|]. destruct Ht as [<-|Hu].
    - exists a; split; [left; reflexivity | exact Hab].
    - destruct (IH Hu) as [s' [H1 H2]]. exists s'; split; [right; exact H1 | exact H2]. }
  apply arange_In in Hin; [|exact HNs]. destruct Hnx as [H2 [H3 _]]. destruct Hnd as [_ Hp].
  split; [nia | exact H2].
Qed.
