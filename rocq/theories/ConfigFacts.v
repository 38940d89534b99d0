(** Proofs about configurations. *)
From Verif Require Import Base BaseFacts Config ConfigSpec.
From Coq Require Import String QArith Qabs Qminmax Lqa.

Lemma assoc_set_same {A} k (v : A) l : assoc k (assoc_set k v l) = Some v.
Proof. induction l as [|[k' v'] l IH]; cbn; [rewrite String.eqb_refl; reflexivity|]. destruct (String.eqb_spec k' k); cbn; [subst; rewrite String.eqb_refl; reflexivity|]. destruct (String.eqb_spec k' k); [contradiction|]. exact IH. Qed.
Lemma assoc_set_other {A} k k2 (v : A) l : k <> k2 -> assoc k2 (assoc_set k v l) = assoc k2 l.
Proof.
  intros H. induction l as [|[k' v'] l IH]; cbn; [destruct (String.eqb_spec k k2); [contradiction | reflexivity]|].
  destruct (String.eqb_spec k' k) as [->|Hn]; cbn; [destruct (String.eqb_spec k k2); [contradiction | reflexivity]|]. destruct (String.eqb k' k2); [reflexivity | exact IH].
Qed.
Lemma assoc_none {A} k (l : list (string * A)) : assoc k l = None <-> ~ In k (map fst l).
Proof.
  induction l as [|[k' v'] l IH]; cbn; [tauto|]. destruct (String.eqb_spec k' k) as [->|Hn]; [split; [discriminate | intros H; exfalso; tauto]|]. rewrite IH. split; [intros H [C|C]; tauto | tauto].
Qed.

Section Load.
Context (lit : string -> res (list val)).
Definition interp1 (v : val) : res val :=
  match v with VStr s => if bracketed s then (do l <- lit s; Ok (VList l)) else Ok v | VDict _ => interp lit v | _ => Ok v end.
Lemma interp_dict kvs d1 : interp lit (VDict kvs) = Ok d1 -> exists kvs1, d1 = VDict kvs1 /\ map fst kvs1 = map fst kvs /\
  forall k, match assoc k kvs with None => assoc k kvs1 = None | Some v => exists v1, interp1 v = Ok v1 /\ assoc k kvs1 = Some v1 end.
Proof.
  cbn [interp]. intros H. 
  match type of H with bind ?g _ = _ => destruct g as [kvs1|] eqn:E; [|discriminate] end. cbn [bind] in H. injection H as <-. exists kvs1. split; [reflexivity|].
  revert kvs1 E. induction kvs as [|[k v] r IH]; intros kvs1 E; [injection E as <-; split; [reflexivity | intros; reflexivity]|].
  change (match v with VStr s => if bracketed s then (do l <- lit s; Ok (VList l)) else Ok v | VDict _ => interp lit v | _ => Ok v end) with (interp1 v) in E.
  destruct (interp1 v) as [v1|] eqn:E1; [|discriminate]. cbn [bind] in E.
  match type of E with bind ?g _ = _ => destruct g as [r1|] eqn:E2; [|discriminate] end. cbn [bind] in E. injection E as <-. destruct (IH r1 eq_refl) as [I1 I2].
  split; [cbn; f_equal; exact I1|]. intros k0. cbn [assoc]. destruct (String.eqb_spec k k0) as [->|Hn]; [exists v1; split; [exact E1 | reflexivity] | apply I2].
Qed.
Definition arrays1 (ref : val) (k : string) (v : val) : res val :=
  match v with
  | VList l => match ref with VObj ts _ => match assoc k ts with Some true => Ok (VArr l) | Some false => Ok v | None => Err KeyError end | _ => Err TypeError end
  | VDict _ => do sub <- getattr ref k; arrays v sub
  | _ => Ok v
  end.
Lemma arrays_dict kvs ref d1 : arrays (VDict kvs) ref = Ok d1 -> exists kvs1, d1 = VDict kvs1 /\ map fst kvs1 = map fst kvs /\
  forall k, match assoc k kvs with None => assoc k kvs1 = None | Some v => exists v1, arrays1 ref k v = Ok v1 /\ assoc k kvs1 = Some v1 end.
Proof.
  cbn [arrays]. intros H. 
  match type of H with bind ?g _ = _ => destruct g as [kvs1|] eqn:E; [|discriminate] end. cbn [bind] in H. injection H as <-. exists kvs1. split; [reflexivity|].
  revert kvs1 E. induction kvs as [|[k v] r IH]; intros kvs1 E; [injection E as <-; split; [reflexivity | intros; reflexivity]|].
  match type of E with bind ?g _ = _ => change g with (arrays1 ref k v) in E end.
  destruct (arrays1 ref k v) as [v1|] eqn:E1; [|discriminate]. cbn [bind] in E.
  match type of E with bind ?g _ = _ => destruct g as [r1|] eqn:E2; [|discriminate] end. cbn [bind] in E. injection E as <-. destruct (IH r1 eq_refl) as [I1 I2].
  split; [cbn; f_equal; exact I1|]. intros k0. cbn [assoc]. destruct (String.eqb_spec k k0) as [->|Hn]; [exists v1; split; [exact E1 | reflexivity] | apply I2].
Qed.
Definition load1 (o : val) (k : string) (v : val) : res val :=
  match v with VDict _ => do sub <- getattr o k; do sub' <- load v sub; setattr o k sub' | _ => setattr o k v end.
Lemma load_dict kvs : forall o o', NoDup (map fst kvs) -> load (VDict kvs) o = Ok o' ->
  (kvs = [] /\ o' = o) \/
  exists ts a a', o = VObj ts a /\ o' = VObj ts a' /\
  forall k, match assoc k kvs with
            | None => assoc k a' = assoc k a
            | Some v => if is_dict v then exists sub sub', assoc k a = Some sub /\ load v sub = Ok sub' /\ assoc k a' = Some sub' else assoc k a' = Some v
            end.
Proof.
  induction kvs as [|[k v] r IH]; intros o o' Hnd H.
  { injection H as <-. left. split; reflexivity. }
  right. cbn [map fst] in Hnd. apply NoDup_cons_iff in Hnd. destruct Hnd as [Hn Hnd]. apply assoc_none in Hn.
  cbn [load] in H. match type of H with bind ?g _ = _ => change g with (load1 o k v) in H; destruct (load1 o k v) as [o1|] eqn:E1; [|discriminate] end. cbn [bind] in H.
  change (load (VDict r) o1 = Ok o') in H.
  assert (S1 : exists ts a w, o = VObj ts a /\ o1 = VObj ts (assoc_set k w a) /\ if is_dict v then exists sub, assoc k a = Some sub /\ load v sub = Ok w else w = v).
  { unfold load1 in E1. destruct v as [z|s|l|l|kk|ts' a']; cbn [is_dict]; try (destruct o as [| | | | |ts a]; cbn in E1; try discriminate; injection E1 as <-; exists ts, a; eexists; split; [reflexivity|]; split; reflexivity).
    unfold getattr in E1. destruct o as [| | | | |ts a]; try discriminate. destruct (assoc k a) as [sub|] eqn:Ea; [|discriminate]. cbn [bind] in E1.
    destruct (load (VDict kk) sub) as [sub'|] eqn:El; [|discriminate]. cbn in E1. injection E1 as <-. exists ts, a, sub'. split; [reflexivity|]. split; [reflexivity|]. exists sub. split; [exact Ea | exact El]. }
  destruct S1 as (ts & a & w & -> & -> & Hw).
  destruct (IH _ _ Hnd H) as [[-> ->]|(ts2 & a2 & a' & E2 & -> & G)].
  - exists ts, a, (assoc_set k w a). split; [reflexivity|]. split; [reflexivity|]. intros k0. cbn [assoc]. destruct (String.eqb_spec k k0) as [<-|Hne].
    + rewrite assoc_set_same. destruct (is_dict v); [destruct Hw as (sub & H1 & H2); exists sub, w; repeat split; assumption | subst; reflexivity].
    + apply assoc_set_other. exact Hne.
  - injection E2 as <- <-. exists ts, a, a'. split; [reflexivity|]. split; [reflexivity|]. intros k0. cbn [assoc]. specialize (G k0). destruct (String.eqb_spec k k0) as [<-|Hne].
    + rewrite Hn in G. rewrite G, assoc_set_same. destruct (is_dict v); [destruct Hw as (sub & H1 & H2); exists sub, w; repeat split; assumption | subst; reflexivity].
    + destruct (assoc k0 r) as [v0|]; [|rewrite G; apply assoc_set_other; exact Hne].
      destruct (is_dict v0); [|exact G]. destruct G as (sub & sub' & G1 & G2 & G3). exists sub, sub'. rewrite assoc_set_other in G1 by exact Hne. repeat split; assumption.
Qed.

Lemma one_level kvs o o' : NoDup (map fst kvs) -> load_from_yaml lit (VDict kvs) o = Ok o' ->
  (kvs = [] /\ o' = o) \/
  exists ts a a', o = VObj ts a /\ o' = VObj ts a' /\
  forall k, match assoc k kvs with
            | None => assoc k a' = assoc k a
            | Some v => if is_dict v then exists sub sub', assoc k a = Some sub /\ load_from_yaml lit v sub = Ok sub' /\ assoc k a' = Some sub'
                        else exists w, converts lit (match assoc k ts with Some b => b | None => false end) v w /\ assoc k a' = Some w /\ (listy v = true -> assoc k ts <> None)
            end.
Proof.
  intros Hnd H. unfold load_from_yaml in H. destruct (interp lit (VDict kvs)) as [d1|] eqn:E1; [|discriminate]. cbn [bind] in H.
  destruct (interp_dict kvs d1 E1) as (kvs1 & -> & M1 & G1). destruct (arrays (VDict kvs1) o) as [d2|] eqn:E2; [|discriminate]. cbn [bind] in H.
  destruct (arrays_dict kvs1 o d2 E2) as (kvs2 & -> & M2 & G2).
  assert (Hnd2 : NoDup (map fst kvs2)) by (rewrite M2, M1; exact Hnd).
  destruct (load_dict kvs2 o o' Hnd2 H) as [[-> ->]|(ts & a & a' & -> & -> & G3)].
  - left. split; [|reflexivity]. destruct kvs1; [|discriminate]. destruct kvs; [reflexivity | discriminate].
  - right. exists ts, a, a'. split; [reflexivity|]. split; [reflexivity|]. intros k. specialize (G1 k). specialize (G2 k). specialize (G3 k).
    destruct (assoc k kvs) as [v|].
    + destruct G1 as (v1 & I1 & A1). rewrite A1 in G2. destruct G2 as (v2 & I2 & A2). rewrite A2 in G3.
      destruct v as [z|s|l|l|kk|ts' at']; cbn [is_dict].
      * injection I1 as <-. injection I2 as <-. exists (VAtom z). split; [reflexivity|]. split; [exact G3 | discriminate].
      * cbn [interp1] in I1. cbn [converts]. destruct (bracketed s) eqn:Eb.
        -- destruct (lit s) as [l|] eqn:El; [|discriminate]. cbn [bind] in I1. injection I1 as <-. cbn [arrays1] in I2.
           destruct (assoc k ts) as [[|]|]; [| |discriminate]; injection I2 as <-; eexists; (split; [exists l; split; reflexivity | split; [exact G3 | discriminate]]).
        -- injection I1 as <-. injection I2 as <-. exists (VStr s). split; [reflexivity|]. split; [exact G3 | cbn [listy]; congruence].
      * injection I1 as <-. cbn [arrays1] in I2. cbn [converts]. destruct (assoc k ts) as [[|]|]; [| |discriminate]; injection I2 as <-; eexists; (split; [reflexivity | split; [exact G3 | discriminate]]).
      * injection I1 as <-. injection I2 as <-. exists (VArr l). split; [reflexivity|]. split; [exact G3 | discriminate].
      * cbn [interp1] in I1. destruct (interp_dict kk v1 I1) as (kk1 & -> & _). cbn [arrays1 getattr] in I2. destruct (assoc k a) as [sub|] eqn:Ea; [|discriminate]. cbn [bind] in I2.
        destruct (arrays_dict kk1 sub v2 I2) as (kk2 & -> & _). cbn [is_dict] in G3. destruct G3 as (sub1 & sub' & B1 & B2 & B3). assert (sub1 = sub) by congruence. subst sub1.
        exists sub, sub'. split; [reflexivity|]. split; [|exact B3]. unfold load_from_yaml. rewrite I1. cbn [bind]. rewrite I2. exact B2.
      * injection I1 as <-. injection I2 as <-. exists (VObj ts' at'). split; [reflexivity|]. split; [exact G3 | discriminate].
    + rewrite G1 in G2. rewrite G2 in G3. exact G3.
Qed.
Lemma uk_root kvs : unique_keys (VDict kvs) -> NoDup (map fst kvs).
Proof. intros H. exact (H [] kvs eq_refl). Qed.
Lemma uk_sub kvs k v : unique_keys (VDict kvs) -> assoc k kvs = Some v -> unique_keys v.
Proof. intros H Hk p kk Hp. apply (H (k :: p) kk). cbn. rewrite Hk. exact Hp. Qed.

Lemma load_leaf p : forall d o o' v, unique_keys d -> load_from_yaml lit d o = Ok o' -> p <> [] -> dict_path p d = Some v -> is_dict v = false ->
  exists w, converts lit (array_field p o) v w /\ obj_path p o' = Some w.
Proof.
  induction p as [|k p IH]; intros d o o' v Hu H Hp Hd Hv; [congruence|]. cbn [dict_path] in Hd. destruct d as [| | | |kvs|]; try discriminate.
  destruct (assoc k kvs) as [v0|] eqn:Ek; [|discriminate].
  destruct (one_level kvs o o' (uk_root _ Hu) H) as [[-> _]|(ts & a & a' & -> & -> & G)]; [discriminate|]. specialize (G k). rewrite Ek in G.
  destruct p as [|k' p].
  - cbn in Hd. injection Hd as ->. rewrite Hv in G. destruct G as (w & C & Ha & _). exists w. split; [exact C|]. cbn. rewrite Ha. reflexivity.
  - assert (Hdv : is_dict v0 = true) by (destruct v0; cbn in Hd; try discriminate; reflexivity). rewrite Hdv in G. destruct G as (sub & sub' & G1 & G2 & G3).
    destruct (IH v0 sub sub' v (uk_sub _ _ _ Hu Ek) G2 ltac:(discriminate) Hd Hv) as (w & C & Ho). exists w.
    split; [cbn [array_field]; rewrite G1; exact C|]. cbn [obj_path] in *. rewrite G3. exact Ho.
Qed.
Lemma load_absent p : forall d o o', unique_keys d -> load_from_yaml lit d o = Ok o' -> absent p d -> obj_path p o' = obj_path p o.
Proof.
  induction p as [|k p IH]; intros d o o' Hu H Ha; [destruct d; destruct Ha|]. cbn [absent] in Ha. destruct d as [| | | |kvs|]; try (destruct Ha; fail).
  destruct (one_level kvs o o' (uk_root _ Hu) H) as [[-> ->]|(ts & a & a' & -> & -> & G)]; [reflexivity|]. specialize (G k). cbn [obj_path].
  destruct (assoc k kvs) as [v0|] eqn:Ek; [|rewrite G; reflexivity]. destruct Ha as [Hdv Ha]. rewrite Hdv in G. destruct G as (sub & sub' & G1 & G2 & G3).
  rewrite G1, G3. apply (IH v0 sub sub' (uk_sub _ _ _ Hu Ek) G2 Ha).
Qed.

Section ValInd.
Variable P : val -> Prop.
Hypothesis HD : forall kvs, Forall (fun p => P (snd p)) kvs -> P (VDict kvs).
Hypothesis HN : forall v, is_dict v = false -> P v.
Fixpoint val_ind2 (v : val) : P v :=
  match v with
  | VDict kvs => HD kvs ((fix go l : Forall (fun p => P (snd p)) l := match l with [] => Forall_nil _ | p :: r => Forall_cons p (val_ind2 (snd p)) (go r) end) kvs)
  | v => HN v eq_refl
  end.
End ValInd.
Definition fits1 (o : val) (k : string) (v : val) : Prop :=
  exists ts a, o = VObj ts a /\ (listy v = true -> assoc k ts <> None) /\
    match v with
    | VStr s => bracketed s = true -> exists l, lit s = Ok l
    | VDict _ => match assoc k a with Some sub => fits lit v sub | None => False end
    | _ => True
    end.
Lemma fits_eq kvs o : fits lit (VDict kvs) o <-> forall k v, In (k, v) kvs -> fits1 o k v.
Proof.
  induction kvs as [|[k v] r IH]; [split; [intros _ k v [] | intros _; exact I]|]. split.
  - intros [H1 H2]. intros k0 v0 [E|Hi]; [injection E as <- <-; exact H1|]. apply IH; [exact H2 | exact Hi].
  - intros H. split; [apply H; left; reflexivity|]. apply IH. intros k0 v0 Hi. apply H. right. exact Hi.
Qed.
Lemma interp_ok kvs : (forall k v, In (k, v) kvs -> exists v1, interp1 v = Ok v1) -> exists d1, interp lit (VDict kvs) = Ok d1.
Proof.
  induction kvs as [|[k v] r IH]; intros H; [eexists; reflexivity|]. destruct (H k v (or_introl eq_refl)) as [v1 H1]. destruct IH as [d1 H2]; [intros; eapply H; right; eassumption|].
  cbn [interp] in H2 |- *. match goal with |- exists d, bind (bind ?g _) _ = _ => change g with (interp1 v) end. rewrite H1. cbn [bind].
  match type of H2 with bind ?g _ = _ => destruct g; [|discriminate] end. eexists. reflexivity.
Qed.
Lemma arrays_ok kvs o : (forall k v, In (k, v) kvs -> exists v1, arrays1 o k v = Ok v1) -> exists d1, arrays (VDict kvs) o = Ok d1.
Proof.
  induction kvs as [|[k v] r IH]; intros H; [eexists; reflexivity|]. destruct (H k v (or_introl eq_refl)) as [v1 H1]. destruct IH as [d1 H2]; [intros; eapply H; right; eassumption|].
  cbn [arrays] in H2 |- *. match goal with |- exists d, bind (bind ?g _) _ = _ => change g with (arrays1 o k v) end. rewrite H1. cbn [bind].
  match type of H2 with bind ?g _ = _ => destruct g; [|discriminate] end. eexists. reflexivity.
Qed.
Lemma load_ok kvs : forall ts a, NoDup (map fst kvs) ->
  (forall k v, In (k, v) kvs -> is_dict v = true -> exists sub sub', assoc k a = Some sub /\ load v sub = Ok sub') -> exists o', load (VDict kvs) (VObj ts a) = Ok o'.
Proof.
  induction kvs as [|[k v] r IH]; intros ts a Hnd H; [eexists; reflexivity|]. cbn [map fst] in Hnd. apply NoDup_cons_iff in Hnd. destruct Hnd as [Hn Hnd].
  cbn [load]. match goal with |- exists d, bind ?g _ = _ => change g with (load1 (VObj ts a) k v) end.
  assert (H1 : exists w, load1 (VObj ts a) k v = Ok (VObj ts (assoc_set k w a))).
  { destruct v as [| | | |kk|]; try (eexists; reflexivity). destruct (H k _ (or_introl eq_refl) eq_refl) as (sub & sub' & H1 & H2). cbn [load1 getattr]. rewrite H1. cbn [bind]. rewrite H2. eexists. reflexivity. }
  destruct H1 as [w H1]. rewrite H1. cbn [bind]. change (exists o', load (VDict r) (VObj ts (assoc_set k w a)) = Ok o'). apply IH; [exact Hnd|].
  intros k0 v0 Hi Hd. destruct (H k0 v0 (or_intror Hi) Hd) as (sub & sub' & H2 & H3). exists sub, sub'. split; [|exact H3]. rewrite assoc_set_other; [exact H2|].
  intros ->. apply Hn. apply (in_map fst) in Hi. exact Hi.
Qed.
Lemma assoc_in {A} k (v : A) l : assoc k l = Some v -> In (k, v) l.
Proof. induction l as [|[k' v'] l IH]; cbn; [discriminate|]. destruct (String.eqb_spec k' k) as [->|_]; [intros H; injection H as ->; left; reflexivity | intros H; right; apply IH; exact H]. Qed.
Lemma nodup_assoc {A} (l : list (string * A)) : NoDup (map fst l) -> forall k v, In (k, v) l -> assoc k l = Some v.
Proof.
  induction l as [|[k' v'] l IH]; intros Hn k v Hi; [destruct Hi|]. cbn in Hn. apply NoDup_cons_iff in Hn. destruct Hn as [H1 H2]. cbn. destruct Hi as [Hi|Hi].
  - injection Hi as -> ->. rewrite String.eqb_refl. reflexivity.
  - destruct (String.eqb_spec k' k) as [->|_]; [exfalso; apply H1; apply (in_map fst) in Hi; exact Hi | apply IH; assumption].
Qed.
Lemma load_fits d : forall o, unique_keys d -> (fits lit d o <-> exists o', load_from_yaml lit d o = Ok o').
Proof.
  induction d as [kvs IH|v Hv] using val_ind2; intros o Hu.
  2:{ split; [intros _ | intros _; destruct v; try discriminate; exact I]. exists o. destruct v; try discriminate; reflexivity. }
  rewrite fits_eq. pose proof (uk_root _ Hu) as Hnd. split.
  - intros H. rewrite Forall_forall in IH.
    destruct kvs as [|[k0 v0] kvs0]; [exists o; reflexivity|]. destruct (H k0 v0 (or_introl eq_refl)) as (ts & a & -> & _). remember ((k0, v0) :: kvs0) as kvs eqn:Ek. clear Ek k0 v0 kvs0.
    assert (Sub : forall k v, In (k, v) kvs -> is_dict v = true -> exists sub o', assoc k a = Some sub /\ load_from_yaml lit v sub = Ok o').
    { intros k v Hi Hd. destruct (H k v Hi) as (ts' & a' & E & _ & Hf). injection E as <- <-. destruct v as [| | | |kk|]; try discriminate. destruct (assoc k a) as [sub|] eqn:Ea; [|destruct Hf].
      destruct (proj1 (IH (k, VDict kk) Hi sub (uk_sub _ _ _ Hu (nodup_assoc _ Hnd _ _ Hi))) Hf) as [o' Ho]. exists sub, o'. split; [reflexivity | exact Ho]. }
    destruct (interp_ok kvs) as [d1 E1].
    { intros k v Hi. destruct v as [z|s|l|l|kk|ts' a']; try (eexists; reflexivity).
      - cbn [interp1]. destruct (bracketed s) eqn:Eb; [|eexists; reflexivity]. destruct (H k _ Hi) as (_ & _ & _ & _ & Hl). destruct (Hl Eb) as [l ->]. eexists. reflexivity.
      - destruct (Sub k _ Hi eq_refl) as (sub & o' & _ & Ho). unfold load_from_yaml in Ho. cbn [interp1]. destruct (interp lit (VDict kk)); [eexists; reflexivity | discriminate]. }
    destruct (interp_dict kvs d1 E1) as (kvs1 & -> & M1 & G1).
    assert (Hnd1 : NoDup (map fst kvs1)) by (rewrite M1; exact Hnd).
    assert (Back : forall k v1, In (k, v1) kvs1 -> exists v, In (k, v) kvs /\ interp1 v = Ok v1).
    { intros k v1 Hi. apply (nodup_assoc _ Hnd1) in Hi. specialize (G1 k). destruct (assoc k kvs) as [v|] eqn:Ea; [|congruence]. destruct G1 as (v1' & I1 & A1). exists v. split; [apply assoc_in; exact Ea | congruence]. }
    destruct (arrays_ok kvs1 (VObj ts a)) as [d2 E2].
    { intros k v1 Hi. destruct (Back k v1 Hi) as (v & Hv & I1). destruct v1 as [z|s|l|l|kk1|ts' a']; try (eexists; reflexivity).
      - cbn [arrays1]. destruct (H k v Hv) as (ts' & a' & E & Hl & _). injection E as <- <-.
        assert (Hly : listy v = true) by (destruct v as [z|s|l0|l0|kk|ts' a']; cbn in I1 |- *; try discriminate; [destruct (bracketed s); [reflexivity | discriminate] | reflexivity | destruct (interp_dict kk _ I1) as (x & C & _); discriminate]).
        specialize (Hl Hly). destruct (assoc k ts) as [[|]|]; [eexists; reflexivity | eexists; reflexivity | congruence].
      - destruct v as [z|s|l0|l0|kk|ts' a']; cbn [interp1] in I1; try discriminate; [destruct (bracketed s); [destruct (lit s); discriminate | discriminate]|].
        destruct (Sub k _ Hv eq_refl) as (sub & o' & Ha & Ho). unfold load_from_yaml in Ho. rewrite I1 in Ho. cbn [bind] in Ho. cbn [arrays1 getattr]. rewrite Ha. cbn [bind]. destruct (arrays (VDict kk1) sub); [eexists; reflexivity | discriminate]. }
    destruct (arrays_dict kvs1 _ d2 E2) as (kvs2 & -> & M2 & G2).
    assert (Hnd2 : NoDup (map fst kvs2)) by (rewrite M2; exact Hnd1).
    destruct (load_ok kvs2 ts a Hnd2) as [o' Ho'].
    { intros k v2 Hi Hd. apply (nodup_assoc _ Hnd2) in Hi. specialize (G2 k). destruct (assoc k kvs1) as [v1|] eqn:A1; [|congruence]. destruct G2 as (v2' & I2 & A2). assert (v2' = v2) by congruence. subst v2'.
      destruct (Back k v1 (assoc_in _ _ _ A1)) as (v & Hv & I1). destruct v2 as [| | | |kk2|]; try discriminate.
      destruct v1 as [z|s|l|l|kk1|ts' a']; cbn [arrays1] in I2; try discriminate; [destruct (assoc k ts) as [[|]|]; discriminate|]. cbn [getattr] in I2.
      destruct v as [z|s|l0|l0|kk|ts' a']; cbn [interp1] in I1; try discriminate; [destruct (bracketed s); [destruct (lit s); discriminate | discriminate]|].
      destruct (Sub k _ Hv eq_refl) as (sub & o' & Ha & Ho). unfold load_from_yaml in Ho. rewrite I1 in Ho. cbn [bind] in Ho. rewrite Ha in I2. cbn [bind] in I2. rewrite I2 in Ho. cbn [bind] in Ho. exists sub, o'. split; [exact Ha | exact Ho]. }
    exists o'. unfold load_from_yaml. rewrite E1. cbn [bind]. rewrite E2. exact Ho'.
  - intros [o' H] k v Hi. destruct (one_level kvs o o' Hnd H) as [[-> _]|(ts & a & a' & -> & -> & G)]; [destruct Hi|]. specialize (G k). rewrite (nodup_assoc _ Hnd _ _ Hi) in G.
    exists ts, a. split; [reflexivity|]. rewrite Forall_forall in IH. destruct (is_dict v) eqn:Hd.
    + destruct v as [| | | |kk|]; try discriminate. split; [discriminate|]. destruct G as (sub & sub' & G1 & G2 & _). rewrite G1. apply (IH (k, VDict kk) Hi sub (uk_sub _ _ _ Hu (nodup_assoc _ Hnd _ _ Hi))). exists sub'. exact G2.
    + destruct G as (w & C & _ & Hl). split; [exact Hl|]. destruct v as [| s | | | |]; try exact I; [|discriminate]. intros Eb. cbn [converts] in C. rewrite Eb in C. destruct C as (l & El & _). exists l. exact El.
Qed.
End Load.

(** ** equality *)
Section FvInd.
Variable P : fv -> Prop.
Hypothesis HA : forall z, P (FAtom z).
Hypothesis HR : forall s d, P (FArr s d).
Hypothesis HO : forall a, Forall (fun p => P (snd p)) a -> P (FObj a).
Fixpoint fv_ind2 (v : fv) : P v :=
  match v with
  | FAtom z => HA z
  | FArr s d => HR s d
  | FObj a => HO a ((fix go l : Forall (fun p => P (snd p)) l := match l with [] => Forall_nil _ | p :: r => Forall_cons p (fv_ind2 (snd p)) (go r) end) a)
  end.
End FvInd.

Definition eqd1 (d2 : fv) (k : string) (v : fv) : res bool :=
  match v with
  | FObj _ => match d2 with FObj a2 => match assoc k a2 with Some v2 => eqd v v2 | None => Err AttributeError end | _ => Err AttributeError end
  | _ =>
      match d2 with
      | FObj a2 =>
          match assoc k a2 with
          | None => Err KeyError
          | Some (FArr sh2 x2) => match v with FArr sh1 x1 => Ok (shape_eqb sh2 sh1 && allclose x2 x1) | _ => Err AttributeError end
          | Some (FAtom z2) => match v with FAtom z1 => Ok (Z.eqb z2 z1) | FArr _ x1 => do n <- ne_array z2 x1; Ok (negb n) | FObj _ => Ok false end
          | Some (FObj _) => match v with FArr _ [] => Ok true | FArr _ (_ :: _ :: _) => Err ValueError | _ => Ok false end
          end
      | _ => Err AttributeError
      end
  end.
Fixpoint eqd_go (d2 : fv) (l : list (string * fv)) : res bool :=
  match l with [] => Ok true | (k, v) :: r => do ok <- eqd1 d2 k v; if ok then eqd_go d2 r else Ok false end.
Lemma eqd_eq a d2 : eqd (FObj a) d2 = eqd_go d2 a.
Proof. induction a as [|[k v] r IH]; [reflexivity|]. cbn [eqd_go]. rewrite <- IH. reflexivity. Qed.

Fixpoint same_go (x y : list (string * fv)) : bool :=
  match x, y with
  | [], [] => true
  | (k, v) :: x', (k', v') :: y' => String.eqb k k' && same_class v v' && same_go x' y'
  | _, _ => false
  end.
Lemma same_eq x : forall y, same_class (FObj x) (FObj y) = same_go x y.
Proof. induction x as [|[k v] x IH]; intros [|[k' v'] y]; reflexivity. Qed.
Fixpoint close_go (x y : list (string * fv)) : Prop :=
  match x, y with
  | [], [] => True
  | (k, v) :: x', (k', v') :: y' => k = k' /\ close_to v v' /\ close_go x' y'
  | _, _ => False
  end.
Lemma close_eq x : forall y, close_to (FObj x) (FObj y) = close_go x y.
Proof. induction x as [|[k v] x IH]; intros [|[k' v'] y]; reflexivity. Qed.
Lemma wf_eq a : wf_attrs (FObj a) <-> NoDup (map fst a) /\ Forall (fun p => wf_attrs (snd p)) a.
Proof.
  cbn [wf_attrs]. split; intros [H1 H2]; (split; [exact H1|]).
  - clear H1. induction a as [|[k v] a IH]; [constructor|]. destruct H2 as [H2 H3]. constructor; [exact H2 | exact (IH H3)].
  - clear H1. induction H2 as [|[k v] a H2 _ IH]; [exact I|]. split; [exact H2 | exact IH].
Qed.
Lemma close1_spec a b : close1 a b = true <-> (Qabs (a - b) <= (1 # 100000000) + (1 # 100000) * Qabs b)%Q.
Proof. unfold close1. apply Qle_bool_iff. Qed.
Lemma allclose_spec a : forall b, allclose a b = true <-> forall i, (i < List.length b)%nat -> (i < List.length a)%nat ->
  (Qabs (nth i a 0 - nth i b 0) <= (1 # 100000000) + (1 # 100000) * Qabs (nth i b 0))%Q.
Proof.
  unfold allclose. induction a as [|x a IH]; intros [|y b]; cbn [combine forallb]; try (split; [intros _ i Hi Hj; cbn in Hi, Hj; lia | reflexivity]).
  cbn [fst snd]. rewrite Bool.andb_true_iff, IH, close1_spec. split.
  - intros [H1 H2] [|i] Hi Hj; [exact H1|]. cbn in Hi, Hj. cbn [nth]. apply H2; lia.
  - intros H. split; [apply (H 0%nat); cbn; lia|]. intros i Hi Hj. apply (H (S i)); cbn; lia.
Qed.
Lemma same_go_names x : forall y, same_go x y = true -> map fst y = map fst x.
Proof.
  induction x as [|[k v] x IH]; intros [|[k' v'] y] H; try discriminate; [reflexivity|]. cbn [same_go] in H. apply andb_prop in H. destruct H as [H H3]. apply andb_prop in H. destruct H as [H1 H2].
  apply String.eqb_eq in H1. subst. cbn. f_equal. apply IH. exact H3.
Qed.

Lemma eqd_close a : forall b, same_class a b = true -> wf_attrs a -> (exists l, a = FObj l) -> exists r, eqd a b = Ok r /\ (r = true <-> close_to a b).
Proof.
  induction a as [z|s d|x IH] using fv_ind2; intros b Hs Hw [l0 He]; try discriminate. clear l0 He.
  destruct b as [| |y]; try discriminate. rewrite same_eq in Hs. apply wf_eq in Hw. destruct Hw as [Hn Hw]. rewrite eqd_eq, close_eq.
  assert (Hy : forall k v, In (k, v) y -> assoc k y = Some v) by (apply nodup_assoc; rewrite (same_go_names _ _ Hs); exact Hn).
  clear Hn. revert Hy. generalize y at 2 3 as a2. intros a2 Hy. revert y Hs Hy. induction x as [|[k v] x IHx]; intros [|[k' v'] y] Hs Hy; try discriminate.
  - exists true. split; [reflexivity|]. cbn. tauto.
  - cbn [same_go] in Hs. apply andb_prop in Hs. destruct Hs as [Hs Hs3]. apply andb_prop in Hs. destruct Hs as [Hs1 Hs2]. apply String.eqb_eq in Hs1. subst k'.
    apply Forall_cons_iff in IH. destruct IH as [IHv IH]. apply Forall_cons_iff in Hw. destruct Hw as [Hwv Hw]. cbn [snd] in IHv, Hwv.
    destruct (IHx IH Hw y Hs3 (fun k0 v0 Hi => Hy k0 v0 (or_intror Hi))) as (r & Hr & Hc).
    assert (Hv : exists r1, eqd1 (FObj a2) k v = Ok r1 /\ (r1 = true <-> close_to v v')).
    { pose proof (Hy k v' (or_introl eq_refl)) as Ha. destruct v as [z|s d|xs]; destruct v' as [z'|s' d'|ys]; try discriminate; cbn [eqd1]; rewrite Ha.
      - exists (Z.eqb z' z). split; [reflexivity|]. cbn [close_to]. rewrite Z.eqb_eq. split; congruence.
      - exists (shape_eqb s' s && allclose d' d)%bool. split; [reflexivity|]. cbn [close_to]. rewrite Bool.andb_true_iff, allclose_spec. unfold shape_eqb. destruct (list_eq_dec Nat.eq_dec s' s) as [->|Hne].
        + split; [intros [_ H]; split; [reflexivity | exact H] | intros [_ H]; split; [reflexivity | exact H]].
        + split; [intros [C _]; discriminate | intros [C _]; congruence].
      - apply IHv; [exact Hs2 | exact Hwv | eexists; reflexivity]. }
    destruct Hv as (r1 & Hr1 & Hc1). cbn [eqd_go close_go]. rewrite Hr1. cbn [bind]. destruct r1.
    + exists r. split; [exact Hr|]. rewrite Hc. split; [intros H; split; [reflexivity|]; split; [apply Hc1; reflexivity | exact H] | tauto].
    + exists false. split; [reflexivity|]. split; [discriminate|]. intros (_ & H & _). apply Hc1 in H. discriminate.
Qed.
Lemma close_refl a : close_to a a.
Proof.
  induction a as [z|s d|x IH] using fv_ind2; [reflexivity| |].
  - split; [reflexivity|]. intros i _ _. setoid_replace (nth i d 0 - nth i d 0)%Q with 0%Q by ring. change (Qabs 0) with 0%Q. pose proof (Qabs_nonneg (nth i d 0)). lra.
  - rewrite close_eq. induction IH as [|[k v] x H _ IHx]; [exact I|]. split; [reflexivity|]. split; [exact H | exact IHx].
Qed.
Lemma same_refl a : same_class a a = true.
Proof.
  induction a as [z|s d|x IH] using fv_ind2; [reflexivity | reflexivity|]. rewrite same_eq. induction IH as [|[k v] x H _ IHx]; [reflexivity|]. cbn [same_go snd] in *. rewrite String.eqb_refl, H, IHx. reflexivity.
Qed.
Lemma close_array_free a : forall b, array_free a = true -> close_to a b <-> a = b.
Proof.
  induction a as [z|s d|x IH] using fv_ind2; intros b H; [|discriminate|].
  - destruct b; cbn; split; try congruence; try (intros []).
  - split; [|intros <-; apply close_refl]. destruct b as [| |y]; try (intros []; fail). rewrite close_eq. intros Hc. f_equal.
    cbn [array_free] in H. revert y Hc. induction x as [|[k v] x IHx]; intros [|[k' v'] y] Hc; try (destruct Hc; fail); [reflexivity|].
    apply Forall_cons_iff in IH. destruct IH as [IHv IH]. cbn [forallb snd] in H, IHv. apply andb_prop in H. destruct H as [H1 H2]. destruct Hc as (-> & Hv & Hc).
    apply IHv in Hv; [|exact H1]. subst. f_equal. apply IHx; assumption.
Qed.

(** ** folder *)
Lemma ask_spec inputs i : ask inputs = Ok i <-> exists bad rest, inputs = (bad ++ i :: rest)%list /\ In i ["y"; "Y"; "n"; "N"]%string /\ forall b, In b bad -> ~ In b ["y"; "Y"; "n"; "N"]%string.
Proof.
  assert (E : forall s, existsb (String.eqb s) ["y"; "Y"; "n"; "N"]%string = true <-> In s ["y"; "Y"; "n"; "N"]%string).
  { intros s. rewrite existsb_exists. split; [intros (x & H1 & H2); apply String.eqb_eq in H2; subst; exact H1 | intros H; exists s; split; [exact H | apply String.eqb_refl]]. }
  induction inputs as [|s r IH].
  - split; [discriminate|]. intros (bad & rest & H & _). destruct bad; discriminate.
  - cbn [ask]. destruct (existsb (String.eqb s) _) eqn:Es.
    + split.
      * intros H. injection H as <-. exists [], r. split; [reflexivity|]. split; [apply E; exact Es | intros b []].
      * intros (bad & rest & H & Hi & Hb). destruct bad as [|b bad]; [injection H as -> _; reflexivity|]. injection H as <- _. exfalso. apply (Hb s (or_introl eq_refl)). apply E. exact Es.
    + rewrite IH. split.
      * intros (bad & rest & -> & Hi & Hb). exists (s :: bad), rest. split; [reflexivity|]. split; [exact Hi|]. intros b [<-|H]; [intros C; apply E in C; congruence | apply Hb; exact H].
      * intros (bad & rest & H & Hi & Hb). destruct bad as [|b bad]; [injection H as -> _; apply E in Hi; congruence|]. injection H as <- ->. exists bad, rest. split; [reflexivity|]. split; [exact Hi|]. intros b0 H. apply Hb. right. exact H.
Qed.
