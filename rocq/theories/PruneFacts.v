(** Networks that grow node by node are trees; exchange of links. *)
From Verif Require Import Base BaseFacts Buffers BufFacts Tree TreeSpec TreeFacts Prune PruneSpec.
From Coq Require Import Reals Lra.
Local Open Scope nat_scope.

Definition link (E : list (nat * nat)) x y : Prop := In (x, y) E \/ In (y, x) E.
Lemma link_sym E x y : link E x y -> link E y x.
Proof. unfold link. tauto. Qed.

Inductive grown : list (nat * nat) -> list nat -> Prop :=
| g_start u : grown [] [u]
| g_add E V u v : grown E V -> In u V -> ~ In v V -> grown ((u, v) :: E) (v :: V).

Inductive gpath (E : list (nat * nat)) : nat -> nat -> list nat -> Prop :=
| gp_one x : gpath E x x [x]
| gp_cons x y z p : link E x y -> gpath E y z p -> gpath E x z (x :: p).

Lemma grown_link E V x y : grown E V -> link E x y -> In x V /\ In y V /\ x <> y.
Proof.
  intros G. revert x y. induction G as [u|E V u v G IH Hu Hv]; intros x y L; [destruct L as [[]|[]]|].
  assert (N : u <> v) by congruence.
  destruct L as [[L|L]|[L|L]].
  - injection L as <- <-. split; [now right|]. split; [now left|exact N].
  - destruct (IH x y (or_introl L)) as (A & B & C). cbn. tauto.
  - injection L as <- <-. split; [now left|]. split; [now right|congruence].
  - destruct (IH x y (or_intror L)) as (A & B & C). cbn. tauto.
Qed.
Lemma gpath_head E x y p : gpath E x y p -> exists p', p = x :: p'.
Proof. intros H. destruct H; eauto. Qed.
Lemma gpath_last E x y p : gpath E x y p -> In y p.
Proof. induction 1; cbn; auto. Qed.
Lemma gpath_in E V x y p : grown E V -> In x V -> gpath E x y p -> forall z, In z p -> In z V.
Proof.
  intros G Hx H. induction H as [x|x y z p L H IH]; intros w Hw; [destruct Hw as [<-|[]]; exact Hx|].
  destruct Hw as [<-|Hw]; [exact Hx|]. apply IH; [|exact Hw]. now destruct (grown_link _ _ _ _ G L) as (_ & ? & _).
Qed.
Lemma gpath_snoc E x y z p : gpath E x y p -> link E y z -> gpath E x z (p ++ [z]).
Proof. induction 1 as [x|x y w p L H IH]; intros Lz; cbn; [apply (gp_cons E x z z [z] Lz), gp_one|]. apply (gp_cons E x y z _ L). auto. Qed.
Lemma gpath_rev E x y p : gpath E x y p -> gpath E y x (rev p).
Proof. induction 1 as [x|x y z p L H IH]; cbn; [apply gp_one|]. apply gpath_snoc with y; [exact IH|now apply link_sym]. Qed.
Lemma gpath_mono E e x y p : gpath E x y p -> gpath (e :: E) x y p.
Proof. induction 1 as [x|x y z p L H IH]; [apply gp_one|]. apply (gp_cons _ x y z p); [|exact IH]. destruct L; [left|right]; now right. Qed.

Lemma grown_path E V x y : grown E V -> In x V -> In y V -> exists p, gpath E x y p /\ NoDup p.
Proof.
  intros G. revert x y. induction G as [u|E V u v G IH Hu Hv]; intros x y Hx Hy.
  - destruct Hx as [<-|[]], Hy as [<-|[]]. exists [u]. split; [apply gp_one|]. constructor; [intros []|constructor].
  - assert (Lv : link ((u, v) :: E) u v) by (left; now left).
    destruct Hx as [<-|Hx], Hy as [<-|Hy].
    + exists [v]. split; [apply gp_one|]. constructor; [intros []|constructor].
    + destruct (IH u y Hu Hy) as (p & P & N). exists (v :: p). split; [apply (gp_cons _ v u y p); [now apply link_sym|now apply gpath_mono]|].
      constructor; [|exact N]. intros Hin. apply Hv. exact (gpath_in _ _ _ _ _ G Hu P v Hin).
    + destruct (IH x u Hx Hu) as (p & P & N). exists (p ++ [v]). split; [apply gpath_snoc with u; [now apply gpath_mono|exact Lv]|].
      apply NoDup_rev in N. rewrite <- (rev_involutive (p ++ [v])). apply NoDup_rev. rewrite rev_app_distr. cbn. constructor; [|exact N].
      rewrite <- in_rev. intros Hin. apply Hv. exact (gpath_in _ _ _ _ _ G Hx P v Hin).
    + destruct (IH x y Hx Hy) as (p & P & N). exists p. split; [now apply gpath_mono|exact N].
Qed.

Lemma new_link E V u v y : grown E V -> ~ In v V -> link ((u, v) :: E) v y -> y = u.
Proof.
  intros G Hv [[L|L]|[L|L]].
  - now injection L as <- <-.
  - exfalso. apply Hv. now destruct (grown_link E V v y G (or_introl L)).
  - now injection L as <-.
  - exfalso. apply Hv. now destruct (grown_link E V v y G (or_intror L)).
Qed.
Lemma old_path E V u v x y p : grown E V -> ~ In v V -> gpath ((u, v) :: E) x y p -> NoDup p -> x <> v -> y <> v -> gpath E x y p.
Proof.
  intros G Hv H. induction H as [x|x x' y p L H IH]; intros N Hx Hy; [apply gp_one|]. inversion N as [|? ? N1 N2]; subst.
  destruct (Nat.eq_dec x' v) as [->|Hx'].
  - assert (x = u) as -> by (apply (new_link E V u v x G Hv), link_sym, L). exfalso. inversion H as [|? y' ? p' L' H']; subst; [congruence|].
    assert (y' = u) as -> by (now apply (new_link E V u v y' G Hv)). destruct (gpath_head _ _ _ _ H') as (p'' & ->). apply N1. right. now left.
  - apply (gp_cons E x x' y p); [|now apply IH]. destruct L as [[L|L]|[L|L]].
    + injection L as <- <-. congruence. + now left. + injection L as <- <-. congruence. + now right.
Qed.
Lemma grown_unique E V x y p p' : grown E V -> In x V -> In y V -> gpath E x y p -> NoDup p -> gpath E x y p' -> NoDup p' -> p = p'.
Proof.
  intros G. revert x y p p'. induction G as [u|E V u v G IH Hu Hv]; intros x y p p' Hx Hy P N P' N'.
  - assert (K : forall q, gpath [] x y q -> q = [x]) by (intros q Q; inversion Q as [|? ? ? ? L]; subst; [reflexivity|destruct L as [[]|[]]]). rewrite (K p P), (K p' P'). reflexivity.
  - assert (Sg : forall q, gpath ((u, v) :: E) v v q -> NoDup q -> q = [v]).
    { intros q Q M. inversion Q as [|? y' ? q' L Q']; subst; [reflexivity|]. exfalso. inversion M as [|? ? M1 M2]; subst. apply M1. exact (gpath_last _ _ _ _ Q'). }
    assert (Fr : forall z q, In z V -> gpath ((u, v) :: E) v z q -> NoDup q -> exists q', q = v :: q' /\ gpath E u z q' /\ NoDup q').
    { intros z q Hz Q M. inversion Q as [|? y' ? q' L Q']; subst; [contradiction|]. inversion M as [|? ? M1 M2]; subst. assert (y' = u) as -> by (now apply (new_link E V u v y' G Hv)).
      exists q'. split; [reflexivity|]. split; [|exact M2]. apply (old_path E V u v u z q' G Hv Q' M2); congruence. }
    assert (Un : forall z q q', In z V -> gpath ((u, v) :: E) v z q -> NoDup q -> gpath ((u, v) :: E) v z q' -> NoDup q' -> q = q').
    { intros z q q' Hz Q M Q' M'. destruct (Fr z q Hz Q M) as (r & -> & R & RN). destruct (Fr z q' Hz Q' M') as (r' & -> & R' & RN'). f_equal. exact (IH u z r r' Hu Hz R RN R' RN'). }
    destruct Hx as [<-|Hx], Hy as [<-|Hy].
    + now rewrite (Sg p P N), (Sg p' P' N').
    + now apply (Un y).
    + rewrite <- (rev_involutive p), <- (rev_involutive p'). f_equal. apply (Un x); [exact Hx|now apply gpath_rev|now apply NoDup_rev|now apply gpath_rev|now apply NoDup_rev].
    + apply (IH x y); try assumption; apply (old_path E V u v); assumption || congruence.
Qed.

(** ** From lists of links to neighbour lists *)
Section Nbrs.
  Variables (n : nat) (nb : list (list nat)) (E : list (nat * nat)).
  Hypothesis Hn : length nb = n.
  Hypothesis HE : forall k q, k < n -> (In q (nth k nb []) <-> link E k q).
  Hypothesis HR : forall k q, link E k q -> k < n /\ q < n.
  Lemma walk_gpath p : forall u v, u < n -> walk nb u v p <-> gpath E u v p.
  Proof.
    induction p as [|x p IH]; intros u v Hu.
    - split; [intros []|]. intros H. destruct (gpath_head _ _ _ _ H). discriminate.
    - split.
      + intros W. destruct p as [|y p]; [destruct W as [-> ->]; apply gp_one|]. apply walk_inv in W. destruct W as (-> & Hy & W).
        apply (HE u y Hu) in Hy. apply (gp_cons E u y v (y :: p) Hy). apply IH; [now apply (HR u y)|exact W].
      + intros H. destruct (gpath_head _ _ _ _ H) as (p' & Ep). injection Ep as -> <-. inversion H as [|? y ? ? L H']; [split; auto|]. apply walk_step with y; [now apply HE|]. apply IH; [now apply (HR u y)|exact H'].
  Qed.
  Lemma grown_tree V : grown E V -> (forall x, x < n <-> In x V) -> (forall k, k < n -> NoDup (nth k nb [])) -> is_tree n nb.
  Proof.
    intros G HV ND. constructor; auto.
    - intros k q Hk Hq. apply (HE k q Hk) in Hq. now apply (HR k q).
    - intros k Hk H. apply (HE k k Hk) in H. destruct (grown_link _ _ _ _ G H) as (_ & _ & N). congruence.
    - intros k q Hk Hq. apply (HE k q Hk) in Hq. destruct (HR k q Hq) as [_ Lq]. apply (HE q k Lq). now apply link_sym.
    - intros u v Hu Hv. destruct (grown_path E V u v G) as (p & P & N); [now apply HV..|]. exists p. split; [now apply walk_gpath|exact N].
    - intros u v p p' Hu Hv W N W' N'. apply (grown_unique E V u v p p' G); try assumption; [now apply HV..| |]; now apply walk_gpath.
  Qed.
End Nbrs.

(** ** Exchange of a link *)
Inductive outside (E : list (nat * nat)) (V : list nat) : nat -> nat -> Prop :=
| o_one x : ~ In x V -> outside E V x x
| o_cons x y z : ~ In x V -> link E x y -> outside E V y z -> outside E V x z.
Lemma outside_end E V x b : outside E V x b -> ~ In b V /\ ~ In x V.
Proof. induction 1 as [x H|x y z H L O IH]; tauto. Qed.
Lemma joined_enters E V x : joined E V x -> ~ In x V -> exists a b, In a V /\ link E a b /\ outside E V x b.
Proof.
  induction 1 as [x H|x y L J IH]; intros Hx; [contradiction|]. destruct (in_dec Nat.eq_dec y V) as [Hy|Hy].
  - exists y, x. split; [exact Hy|]. split; [now apply link_sym|now apply o_one].
  - destruct (IH Hy) as (a & b & A & B & C). exists a, b. split; [exact A|]. split; [exact B|]. now apply o_cons with y.
Qed.
Lemma outside_drop l1 f l2 V x b : outside (l1 ++ f :: l2) V x b -> (In (fst f) V \/ In (snd f) V) -> outside (l1 ++ l2) V x b.
Proof.
  intros H Hf. induction H as [x H|x y z H L O IH]; [now apply o_one|]. apply o_cons with y; [exact H| |exact IH].
  assert (Hy : ~ In y V) by now apply (outside_end _ _ _ _ O).
  unfold link in *. rewrite !in_app_iff in *. cbn [In] in L. destruct L as [[L|[L|L]]|[L|[L|L]]]; auto; subst f; cbn in Hf; tauto.
Qed.
Lemma outside_joined E V U x b : outside E V x b -> (joined E U x -> joined E U b) /\ (joined E U b -> joined E U x).
Proof.
  induction 1 as [x H|x y z H L O [I1 I2]]; [tauto|]. split; intros J.
  - apply I1. apply j_step with x; [now apply link_sym|exact J].
  - apply j_step with y; [exact L|now apply I2].
Qed.
Lemma joined_mono E V V' x : (forall z, In z V -> In z V') -> joined E V x -> joined E V' x.
Proof. intros H J. induction J as [x Hx|x y L J IH]; [apply j_in; auto|now apply j_step with y]. Qed.
(** If all the nodes are joined to [V], [v] outside of [V] can be taken in for a link between
    [V] and another node. *)
Lemma exchange (E : list (nat * nat)) V v (dom : nat -> Prop) : (forall x, dom x -> joined E V x) -> dom v -> ~ In v V ->
  exists l1 f l2 a b, E = l1 ++ f :: l2 /\ (f = (a, b) \/ f = (b, a)) /\ In a V /\ ~ In b V /\ forall x, dom x -> joined (l1 ++ l2) (v :: V) x.
Proof.
  intros H Hv Nv. destruct (joined_enters E V v (H v Hv) Nv) as (a & b & Ha & L & O).
  assert (S : exists l1 f l2, E = l1 ++ f :: l2 /\ (f = (a, b) \/ f = (b, a))).
  { destruct L as [L|L]; apply in_split in L; destruct L as (l1 & l2 & ->); eauto 10. }
  destruct S as (l1 & f & l2 & -> & Hf). exists l1, f, l2, a, b. split; [reflexivity|]. split; [exact Hf|]. split; [exact Ha|]. destruct (outside_end _ _ _ _ O) as [Nb _]. split; [exact Nb|].
  assert (Ff : In (fst f) V \/ In (snd f) V) by (destruct Hf as [-> | ->]; cbn; auto).
  assert (Jb : joined (l1 ++ l2) (v :: V) b).
  { apply (outside_joined _ _ (v :: V) _ _ (outside_drop _ _ _ _ _ _ O Ff)). apply j_in. now left. }
  intros x Hx. destruct (in_dec Nat.eq_dec x V) as [I|I]; [apply j_in; now right|].
  destruct (joined_enters _ V x (H x Hx) I) as (a' & b' & Ha' & L' & O'). apply (outside_joined _ _ (v :: V) _ _ (outside_drop _ _ _ _ _ _ O' Ff)).
  destruct (outside_end _ _ _ _ O') as [Nb' _].
  assert (C : link (l1 ++ l2) a' b' \/ b' = b).
  { unfold link in *. rewrite !in_app_iff in *. cbn [In] in L'. destruct L' as [[L'|[L'|L']]|[L'|[L'|L']]]; auto; right.
    - destruct Hf as [-> | -> ]; injection L' as E1 E2; congruence.
    - destruct Hf as [-> | -> ]; injection L' as E1 E2; congruence. }
  destruct C as [C| -> ]; [|exact Jb]. apply j_step with a'; [now apply link_sym|]. apply j_in. now right.
Qed.
