(** Lemmas on exported configurations. *)
From Coq Require Import String Permutation.
From Verif Require Import Base Config ConfigSpec ConfigFacts YamlDump YamlDumpSpec.

Section ObjInd.
Variable P : val -> Prop.
Hypothesis HO : forall ts a, Forall (fun p => P (snd p)) a -> P (VObj ts a).
Hypothesis HN : forall v, is_obj v = false -> P v.
Fixpoint obj_ind (v : val) : P v :=
  match v with
  | VObj ts a => HO ts a ((fix go l : Forall (fun p => P (snd p)) l := match l with [] => Forall_nil _ | p :: r => Forall_cons p (obj_ind (snd p)) (go r) end) a)
  | v => HN v eq_refl
  end.
End ObjInd.

Definition to1 (v : val) : res val := match v with VObj _ _ => to_dict v | VArr l => Ok (VList l) | _ => Ok v end.
Lemma to_dict_eq ts a : to_dict (VObj ts a) =
  (do kvs <- mapM (fun kt : string * bool => match assoc (fst kt) a with None => Err AttributeError | Some v => do w <- to1 v; Ok (fst kt, w) end) ts; Ok (VDict kvs)).
Proof.
  cbn [to_dict]. f_equal. 
  match goal with |- mapM ?f ts = mapM ?g ts => assert (E : forall kt, f kt = g kt); [|induction ts as [|kt r IH]; [reflexivity | cbn [mapM]; rewrite E, IH; reflexivity]] end.
  intros [k b]. cbn [fst]. induction a as [|[k0 v0] r IH]; [reflexivity|]. cbn [assoc]. destruct (String.eqb k0 k); [reflexivity | exact IH].
Qed.
Lemma to_dict_ok ts a : NoDup (map fst ts) ->
  (forall k, In k (map fst ts) -> exists v w, assoc k a = Some v /\ to1 v = Ok w) ->
  exists kvs, to_dict (VObj ts a) = Ok (VDict kvs) /\ map fst kvs = map fst ts /\
    forall k, In k (map fst ts) -> exists v w, assoc k a = Some v /\ to1 v = Ok w /\ assoc k kvs = Some w.
Proof.
  intros Hnd H. rewrite to_dict_eq.
  assert (G : exists kvs, mapM (fun kt : string * bool => match assoc (fst kt) a with None => Err AttributeError | Some v => do w <- to1 v; Ok (fst kt, w) end) ts = Ok kvs /\ map fst kvs = map fst ts /\
    forall k, In k (map fst ts) -> exists v w, assoc k a = Some v /\ to1 v = Ok w /\ assoc k kvs = Some w).
  { induction ts as [|[k b] r IH]; [exists []; split; [reflexivity|]; split; [reflexivity | intros k []]|]. cbn [map fst] in *. apply NoDup_cons_iff in Hnd. destruct Hnd as [Hn Hnd].
    destruct (IH Hnd (fun k0 Hk => H k0 (or_intror Hk))) as (kvs & E & M & G). destruct (H k (or_introl eq_refl)) as (v & w & Ha & Hw).
    exists ((k, w) :: kvs). cbn [mapM fst]. rewrite Ha, Hw. cbn [bind]. rewrite E. cbn [bind]. split; [reflexivity|]. split; [cbn; f_equal; exact M|].
    intros k0 [<-|Hk]; cbn [assoc].
    - exists v, w. rewrite String.eqb_refl. repeat split; assumption.
    - destruct (String.eqb_spec k k0) as [->|_]; [contradiction | apply G; exact Hk]. }
  destruct G as (kvs & E & M & G). exists kvs. rewrite E. split; [reflexivity|]. split; assumption.
Qed.

Lemma storable_sub ts a k v : storable (VObj ts a) -> In k (map fst ts) -> assoc k a = Some v -> is_obj v = true -> storable v.
Proof.
  intros [_ H] Hk Ha Hv. split; [exact Hv|]. intros p w Hd Hp. specialize (H (k :: p) w). cbn [declared obj_path] in H. rewrite Ha in H. specialize (H (Logic.conj Hk Hd) Hp).
  destruct w as [| | | | |ts' a']; try exact H; cbn [array_field] in H; (destruct p as [|k' p]; [cbn in Hp; injection Hp as ->; discriminate | rewrite Ha in H; exact H]).
Qed.
Lemma same_fields_sub ts a ts2 a2 k v : same_fields (VObj ts a) (VObj ts2 a2) -> In k (map fst ts) -> assoc k a = Some v -> is_obj v = true ->
  exists v2, assoc k a2 = Some v2 /\ same_fields v v2.
Proof.
  intros H Hk Ha Hv. destruct (assoc k a2) as [v2|] eqn:E2.
  - exists v2. split; [reflexivity|]. intros p ts' a' Hd Hp. specialize (H (k :: p) ts' a'). cbn [declared obj_path] in H. rewrite Ha, E2 in H. exact (H (Logic.conj Hk Hd) Hp).
  - destruct v as [| | | | |ts' a']; try discriminate. specialize (H [k] ts' a'). cbn [declared obj_path] in H. rewrite Ha, E2 in H. destruct (H (Logic.conj Hk I) eq_refl) as (? & ?). discriminate.
Qed.

(** *** sorting *)
Lemma insert_perm kv l : Permutation (insert_key kv l) (kv :: l).
Proof.
  induction l as [|kv' r IH]; [reflexivity|]. cbn [insert_key]. destruct (String.leb _ _); [reflexivity|].
  rewrite IH. apply perm_swap.
Qed.
Lemma sort_perm l : Permutation (sort_keys l) l.
Proof. induction l as [|kv r IH]; [reflexivity|]. cbn [sort_keys fold_right]. rewrite insert_perm. apply perm_skip. exact IH. Qed.
Lemma assoc_perm {A} (l l' : list (string * A)) k : NoDup (map fst l) -> Permutation l l' -> assoc k l = assoc k l'.
Proof.
  intros Hnd HP. assert (Hnd' : NoDup (map fst l')) by (eapply Permutation_NoDup; [apply Permutation_map; exact HP | exact Hnd]).
  destruct (assoc k l) as [v|] eqn:E.
  - symmetry. apply nodup_assoc; [exact Hnd'|]. eapply Permutation_in; [exact HP | apply assoc_in; exact E].
  - symmetry. apply assoc_none. apply assoc_none in E. intros Hi. apply E. eapply Permutation_in; [apply Permutation_map, Permutation_sym; exact HP | exact Hi].
Qed.
Definition s1 (kv : string * val) : string * val := (fst kv, sorted (snd kv)).
Lemma sorted_dict kvs : sorted (VDict kvs) = VDict (sort_keys (map s1 kvs)).
Proof. cbn [sorted]. do 2 f_equal. induction kvs as [|[k v] r IH]; [reflexivity|]. cbn [map s1 fst snd]. f_equal. exact IH. Qed.
Lemma keys_s1 kvs : map fst (map s1 kvs) = map fst kvs.
Proof. rewrite map_map. reflexivity. Qed.
Lemma assoc_sorted kvs k : NoDup (map fst kvs) -> assoc k (sort_keys (map s1 kvs)) = option_map sorted (assoc k kvs).
Proof.
  intros Hnd. rewrite <- (assoc_perm (map s1 kvs) (sort_keys (map s1 kvs)) k); [|rewrite keys_s1; exact Hnd | apply Permutation_sym, sort_perm].
  clear Hnd. induction kvs as [|[k0 v] r IH]; [reflexivity|]. cbn [map s1 assoc fst snd]. destruct (String.eqb k0 k); [reflexivity | exact IH].
Qed.
Lemma nodup_sorted kvs : NoDup (map fst kvs) -> NoDup (map fst (sort_keys (map s1 kvs))).
Proof. intros H. eapply Permutation_NoDup; [apply Permutation_map, Permutation_sym, sort_perm|]. rewrite keys_s1. exact H. Qed.
Lemma in_sorted kvs k w : In (k, w) (sort_keys (map s1 kvs)) -> exists v, In (k, v) kvs /\ w = sorted v.
Proof.
  intros H. apply (Permutation_in _ (sort_perm _)) in H. apply in_map_iff in H. destruct H as ([k0 v] & E & H). unfold s1 in E. cbn in E. injection E as <- <-. exists v. split; [exact H | reflexivity].
Qed.
Lemma sorted_leaf v : is_dict v = false -> sorted v = v.
Proof. destruct v; try reflexivity. discriminate. Qed.

(** what a value of a field is in the file *)
Definition leaf (v : val) : val := match v with VArr l => VList l | _ => v end.

Lemma dump_ok lit o : forall o2, storable o -> same_fields o o2 ->
  exists d, dump_to_yaml_template o = Ok d /\ is_dict d = true /\ unique_keys d /\ fits lit d o2 /\
    (forall p v, declared p o -> obj_path p o = Some v -> is_obj v = false -> dict_path p d = Some (leaf v)) /\
    (forall p ts a k r, declared p o -> obj_path p o = Some (VObj ts a) -> ~ In k (map fst ts) -> absent (p ++ k :: r) d).
Proof.
  induction o as [ts a IH | v Hv] using obj_ind; intros o2 Hst Hsf; [|destruct Hst as [Hst _]; congruence].
  destruct (Hsf [] ts a I eq_refl) as (a2 & E2). cbn [obj_path] in E2. injection E2 as ->.
  pose proof (proj2 Hst [] (VObj ts a) I eq_refl) as Hroot. cbn beta iota in Hroot. destruct Hroot as [Hnd Hall].
  rewrite Forall_forall in IH.
  assert (Hsub : forall k v, In k (map fst ts) -> assoc k a = Some v -> is_obj v = true ->
     exists v2 d, assoc k a2 = Some v2 /\ to_dict v = Ok d /\ is_dict d = true /\ unique_keys (sorted d) /\ fits lit (sorted d) v2 /\
       (forall p w, declared p v -> obj_path p v = Some w -> is_obj w = false -> dict_path p (sorted d) = Some (leaf w)) /\
       (forall p ts a k r, declared p v -> obj_path p v = Some (VObj ts a) -> ~ In k (map fst ts) -> absent (p ++ k :: r) (sorted d))).
  { intros k v Hk Ha Hv. destruct (same_fields_sub _ _ _ _ k v Hsf Hk Ha Hv) as (v2 & E2 & S2).
    destruct (IH (k, v) (assoc_in _ _ _ Ha) v2 (storable_sub _ _ _ _ Hst Hk Ha Hv) S2) as (d & D1 & D2 & D3 & D4 & D5 & D6). cbn [snd] in *.
    unfold dump_to_yaml_template in D1. destruct (to_dict v) as [d0|] eqn:Ed; [|discriminate]. cbn [bind] in D1. injection D1 as <-.
    exists v2, d0. split; [exact E2|]. split; [reflexivity|]. split; [destruct d0; try discriminate; reflexivity|]. repeat split; assumption. }
  assert (Hplain : forall k v, In k (map fst ts) -> assoc k a = Some v -> is_obj v = false -> plain (match assoc k ts with Some b => b | None => false end) v).
  { intros k v Hk Ha Hv. pose proof (proj2 Hst [k] v) as Hp. cbn [declared obj_path] in Hp. rewrite Ha in Hp. specialize (Hp (Logic.conj Hk I) eq_refl). destruct v; try discriminate; exact Hp. }
  destruct (to_dict_ok ts a Hnd) as (kvs & Ed & Hkeys & G).
  { intros k Hk. destruct (assoc k a) as [v|] eqn:Ea; [|exfalso; exact (Hall k Hk Ea)]. exists v. destruct (is_obj v) eqn:Ev.
    - destruct (Hsub k v Hk Ea Ev) as (v2 & d & _ & D & _). exists d. split; [reflexivity|]. destruct v; try discriminate. exact D.
    - exists (leaf v). split; [reflexivity|]. destruct v; try discriminate; reflexivity. }
  assert (Hndk : NoDup (map fst kvs)) by (rewrite Hkeys; exact Hnd).
  assert (Hto : forall v w, is_obj v = false -> to1 v = Ok w -> w = leaf v) by (intros v w Hv E; destruct v; try discriminate; injection E as <-; reflexivity).
  assert (Hto2 : forall v, is_obj v = true -> to1 v = to_dict v) by (intros v Hv; destruct v; try discriminate; reflexivity).
  assert (GP : forall k v, In k (map fst ts) -> assoc k a = Some v -> is_obj v = false -> assoc k (sort_keys (map s1 kvs)) = Some (leaf v) /\ is_dict (leaf v) = false).
  { intros k v Hk Ha Hv. destruct (G k Hk) as (v' & w & A1 & A2 & A3). assert (v' = v) by congruence. subst v'. apply Hto in A2; [|exact Hv]. subst w.
    pose proof (Hplain k v Hk Ha Hv) as Hp. assert (Hl : is_dict (leaf v) = false) by (destruct v; try discriminate; try reflexivity; destruct Hp).
    split; [|exact Hl]. rewrite assoc_sorted by exact Hndk. rewrite A3. cbn. rewrite sorted_leaf by exact Hl. reflexivity. }
  assert (GO : forall k v, In k (map fst ts) -> assoc k a = Some v -> is_obj v = true ->
     exists v2 d, assoc k (sort_keys (map s1 kvs)) = Some d /\ assoc k a2 = Some v2 /\ is_dict d = true /\ unique_keys d /\ fits lit d v2 /\
       (forall p w, declared p v -> obj_path p v = Some w -> is_obj w = false -> dict_path p d = Some (leaf w)) /\
       (forall p ts a k r, declared p v -> obj_path p v = Some (VObj ts a) -> ~ In k (map fst ts) -> absent (p ++ k :: r) d)).
  { intros k v Hk Ha Hv. destruct (Hsub k v Hk Ha Hv) as (v2 & d & B1 & B2 & B3 & B4). destruct (G k Hk) as (v' & w & A1 & A2 & A3). assert (v' = v) by congruence. subst v'.
    rewrite Hto2 in A2 by exact Hv. assert (w = d) by congruence. subst w. exists v2, (sorted d). rewrite assoc_sorted by exact Hndk. rewrite A3. split; [reflexivity|]. split; [exact B1|].
    split; [destruct d; try discriminate; reflexivity | exact B4]. }
  exists (VDict (sort_keys (map s1 kvs))). unfold dump_to_yaml_template. rewrite Ed. cbn [bind]. rewrite sorted_dict.
  split; [reflexivity|]. split; [reflexivity|].
  assert (Hks : forall k w, assoc k (sort_keys (map s1 kvs)) = Some w -> In k (map fst ts)).
  { intros k w Hk. rewrite <- Hkeys. apply assoc_in, in_sorted in Hk. destruct Hk as (v & Hi & _). change k with (fst (k, v)). apply in_map. exact Hi. }
  split; [|split; [|split]].
  - intros p kk Hp. destruct p as [|k p]; [cbn in Hp; injection Hp as <-; apply nodup_sorted; exact Hndk|]. cbn [dict_path] in Hp.
    destruct (assoc k (sort_keys (map s1 kvs))) as [w|] eqn:Ew; [|discriminate]. pose proof (Hks k w Ew) as Hk.
    destruct (assoc k a) as [v|] eqn:Ea; [|exfalso; exact (Hall k Hk Ea)]. destruct (is_obj v) eqn:Ev.
    + destruct (GO k v Hk Ea Ev) as (v2 & d & C1 & _ & _ & C4 & _). assert (w = d) by congruence. subst w. exact (C4 p kk Hp).
    + destruct (GP k v Hk Ea Ev) as [C1 C2]. assert (w = leaf v) by congruence. subst w. destruct p as [|k' p]; cbn in Hp; [injection Hp as E; rewrite E in C2; discriminate|]. destruct (leaf v); discriminate.
  - apply fits_eq. intros k w Hw. assert (Ew : assoc k (sort_keys (map s1 kvs)) = Some w) by (apply nodup_assoc; [apply nodup_sorted; exact Hndk | exact Hw]).
    pose proof (Hks k w Ew) as Hk. exists ts, a2. split; [reflexivity|].
    split. { intros _ E. apply assoc_none in E. contradiction. }
    destruct (assoc k a) as [v|] eqn:Ea; [|exfalso; exact (Hall k Hk Ea)]. destruct (is_obj v) eqn:Ev.
    + destruct (GO k v Hk Ea Ev) as (v2 & d & C1 & C2 & C3 & _ & C5 & _). assert (w = d) by congruence. subst w. destruct d; try discriminate. rewrite C2. exact C5.
    + destruct (GP k v Hk Ea Ev) as [C1 C2]. assert (w = leaf v) by congruence. subst w. pose proof (Hplain k v Hk Ea Ev) as Hp. destruct v; try discriminate; try exact I; cbn [leaf].
      cbn [plain] in Hp. congruence.
  - intros p v Hd Hp Hv. destruct p as [|k p]; [cbn in Hp; injection Hp as <-; discriminate|]. cbn [declared obj_path dict_path] in *. destruct Hd as [Hk Hd].
    destruct (assoc k a) as [v0|] eqn:Ea; [|destruct Hd]. destruct (is_obj v0) eqn:Ev.
    + destruct (GO k v0 Hk Ea Ev) as (v2 & d & C1 & _ & _ & _ & _ & C6 & _). rewrite C1. apply C6; assumption.
    + destruct (GP k v0 Hk Ea Ev) as [C1 C2]. rewrite C1. destruct p as [|k' p]; [cbn in Hp |- *; congruence|]. cbn in Hd. destruct v0; try discriminate; destruct Hd.
  - intros p ts' a' k r Hd Hp Hk. destruct p as [|k0 p].
    + cbn in Hp. injection Hp as <- <-. cbn [app absent]. destruct (assoc k _) as [w|] eqn:Ew; [exfalso; exact (Hk (Hks k w Ew)) | exact I].
    + cbn [declared obj_path app absent] in *. destruct Hd as [Hk0 Hd]. destruct (assoc k0 a) as [v0|] eqn:Ea; [|destruct Hd]. destruct (is_obj v0) eqn:Ev.
      * destruct (GO k0 v0 Hk0 Ea Ev) as (v2 & d & C1 & _ & C3 & _ & _ & _ & C7). rewrite C1. split; [exact C3 | exact (C7 p ts' a' k r Hd Hp Hk)].
      * destruct p as [|k' p]; [cbn in Hp; injection Hp as ->; discriminate|]. cbn in Hd. destruct v0; try discriminate; destruct Hd.
Qed.

Lemma array_field_same p : forall o o2 v, same_fields o o2 -> declared p o -> obj_path p o = Some v -> is_obj v = false -> array_field p o2 = array_field p o.
Proof.
  induction p as [|k p IH]; intros o o2 v Hs Hd Hp Hv; [reflexivity|]. cbn [declared obj_path] in Hd, Hp. destruct o as [| | | | |ts a]; try discriminate.
  destruct (Hs [] ts a I eq_refl) as (a2 & E2). cbn [obj_path] in E2. injection E2 as ->. destruct Hd as [Hk Hd]. destruct (assoc k a) as [v0|] eqn:Ea; [|discriminate].
  destruct p as [|k' p]; [reflexivity|]. assert (Ho : is_obj v0 = true) by (cbn in Hd; destruct v0; try (destruct Hd; fail); reflexivity).
  destruct (same_fields_sub _ _ _ _ k v0 Hs Hk Ea Ho) as (v2 & E2 & S2). cbn [array_field]. rewrite Ea, E2. exact (IH v0 v2 v S2 Hd Hp Hv).
Qed.

Lemma round_trip lit o o2 : storable o -> same_fields o o2 ->
  exists d o', dump_to_yaml_template o = Ok d /\ load_from_yaml lit d o2 = Ok o' /\
    (forall p v, declared p o -> obj_path p o = Some v -> is_obj v = false -> obj_path p o' = Some v) /\
    (forall p ts a k r, declared p o -> obj_path p o = Some (VObj ts a) -> ~ In k (map fst ts) -> obj_path (p ++ k :: r) o' = obj_path (p ++ k :: r) o2).
Proof.
  intros Hst Hsf. destruct (dump_ok lit o o2 Hst Hsf) as (d & D1 & D2 & D3 & D4 & D5 & D6).
  destruct (proj1 (load_fits lit d o2 D3) D4) as (o' & L). exists d, o'. split; [exact D1|]. split; [exact L|]. split.
  - intros p v Hd Hp Hv. pose proof (proj2 Hst p v Hd Hp) as Hpl. assert (Hpl' : plain (array_field p o) v) by (destruct v; try discriminate; exact Hpl). clear Hpl.
    assert (Hne : p <> []) by (intros ->; cbn in Hp; injection Hp as ->; destruct Hst; congruence).
    assert (Hl : is_dict (leaf v) = false) by (destruct v; try discriminate; try reflexivity; destruct Hpl').
    destruct (load_leaf lit p d o2 o' (leaf v) D3 L Hne (D5 p v Hd Hp Hv) Hl) as (w & C & Hw). rewrite Hw. f_equal.
    rewrite (array_field_same p o o2 v Hsf Hd Hp Hv) in C. destruct v as [z|s|l|l|kk|ts a]; try discriminate; cbn [leaf converts plain] in *; try exact C.
    + rewrite Hpl' in C. exact C.
    + rewrite Hpl' in C. exact C.
    + rewrite Hpl' in C. exact C.
  - intros p ts a k r Hd Hp Hk. apply (load_absent lit _ d o2 o' D3 L). exact (D6 p ts a k r Hd Hp Hk).
Qed.
