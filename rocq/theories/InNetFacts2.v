(** The fusion, partial-sum and relay phases. *)
From Verif Require Import Base BaseFacts Buffers BufFacts CentrFacts Sched SchedSpec ChunkSpec ChunkFacts
  Tree TreeSpec TreeFacts TreeFacts2 InNet InNetSpec InNetFacts.
From Coq Require Import Reals Lra Permutation.
Open Scope nat_scope.

Lemma nthL_upd {A} (l : list (list A)) i j x : i < length l -> nth j (upd i x l) [] = if Nat.eqb i j then x else nth j l [].
Proof. revert i j; induction l as [|y l IH]; intros [|i] [|j] H; simpl in *; try lia; try reflexivity. apply IH. lia. Qed.
Lemma getL {A} (l : list (list A)) i : i < length l -> get l i = Ok (nth i l []).
Proof. intros H. apply get_some. apply nth_error_nth'. exact H. Qed.

Section Phases.
  Variables (n N Ns : nat) (nbrs : list (list nat)) (r : nat) (par dep : nat -> nat) (ups : list (list nat)).
  Variables (trees : list otree) (fz : nat -> option (list R)) (new : nat -> list R).
  Hypothesis T : rooted n nbrs r par dep.
  Hypothesis HNs : 0 < Ns < N.
  Hypothesis Hlu : length ups = n.
  Hypothesis Hup : forall k, k < n -> nth k ups [] = children nbrs r par k.
  Hypothesis Hfz : forall k, k < n -> fz k = Some (new k).
  Hypothesis Hnew : forall k, k < n -> Ns <= length (new k).

  (** fusion *)
  Lemma fusion_phase fl : forall s, (forall e, In e fl -> snd e = Fu /\ fst e < n) -> well_shaped n N s ->
    exists s', foldM (ti_event N Ns trees fz) fl s = Ok s' /\ well_shaped n N s' /\
      zp s' = zp s /\ zl s' = zl s /\ eta s' = eta s /\ etamk s' = etamk s /\ cur s' = cur s /\ formed s' = formed s /\
      forall k, (In (k, Fu) fl -> nth k (zpb s') [] = new k) /\ (nth k (zpb s) [] = new k -> nth k (zpb s') [] = new k).
  Proof.
    induction fl as [|[k ty] fl IH]; intros s Hl Hs.
    - exists s. cbn [foldM]. repeat (split; [first [reflexivity | exact Hs]|]). intros k. split; [intros [] | auto].
    - destruct (Hl (k, ty) (or_introl eq_refl)) as [E Hk]. simpl in E, Hk. subst ty.
      destruct Hs as (S1 & S2 & S3 & S4 & S5 & S6).
      cbn [foldM]. unfold ti_event at 1. cbn [snd fst]. unfold ti_fuse. rewrite getL by lia. cbn [bind]. rewrite Hfz by exact Hk. cbn [bind].
      set (s1 := mkNet (zp s) (upd k (new k) (zpb s)) (zl s) (eta s) (etamk s) (cur s) (formed s)).
      destruct (IH s1) as (s' & E' & W & A1 & A2 & A3 & A4 & A5 & A6 & A7).
      { intros e He. apply Hl. right; exact He. }
      { unfold s1. repeat split; simpl; rewrite ?upd_length; auto. }
      exists s'. split; [exact E'|]. split; [exact W|]. repeat (split; [assumption|]). intros q. destruct (A7 q) as [B1 B2].
      unfold s1 in B2. simpl in B2. rewrite nthL_upd in B2 by lia. split.
      + intros [Eq|Hq]; [|auto]. injection Eq as ->. rewrite Nat.eqb_refl in B2. auto.
      + intros Hq. destruct (Nat.eqb_spec k q) as [->|]; auto.
  Qed.

  (** partial sums: [old k] is the frame before this instant *)
  Variable old : nat -> list R.
  Hypothesis Hold : forall k, k < n -> length (old k) = N.
  Definition zf k := shifted_frame N Ns (old k) (new k).

  Lemma zf_len k : k < n -> length (zf k) = N.
  Proof.
    intros Hk. unfold zf, shifted_frame. rewrite app_length, skipn_length, firstn_length, Hold by exact Hk.
    specialize (Hnew k Hk). lia.
  Qed.

  Definition bcinv (done : list nat) (s : net) : Prop :=
    length (zp s) = n /\ length (zpb s) = n /\ length (zl s) = n /\ length (eta s) = n /\ length (etamk s) = n /\
    cur s = Some (ups, r) /\
    (forall k, k < n -> nth k (zpb s) [] = new k) /\
    (forall k, k < n -> nth k (zp s) [] = if memN k done then zf k else old k) /\
    (forall k, In k done -> length (nth k (zl s) []) = N /\
       forall i, i < N -> nth i (nth k (zl s) []) 0%R =
         (nth i (zf k) 0 + lsum (fun c => nth i (nth c (zl s) []) 0) (children nbrs r par k))%R) /\
    (In r done -> nth r (eta s) [] = nth r (zl s) [] /\ length (nth r (etamk s) []) = N /\
       forall i, i < N -> nth i (nth r (etamk s) []) 0%R = (nth i (nth r (eta s) []) 0 - nth i (zf r) 0)%R).

  Lemma partial_fold zls us : forall z, length z = N ->
    (forall c, In c us -> c < length zls /\ length (nth c zls []) = N) ->
    exists acc, foldM (add_partial zls) us z = Ok acc /\ length acc = N /\
      forall i, i < N -> nth i acc 0%R = (nth i z 0 + lsum (fun c => nth i (nth c zls []) 0) us)%R.
  Proof.
    induction us as [|c us IH]; intros z Hz Hc.
    - exists z. split; [reflexivity|]. split; [exact Hz|]. intros; simpl; lra.
    - destruct (Hc c (or_introl eq_refl)) as [H1 H2]. cbn [foldM]. unfold add_partial at 1. rewrite getL by exact H1. cbn [bind].
      destruct (np_iadd_ok N z (nth c zls []) Hz H2) as [a [E [La Ha]]].
      assert (E' : match nth c zls [] with [] => Ok z | _ => np_iadd z (nth c zls []) end = Ok a).
      { destruct (nth c zls []); [simpl in H2; lia | exact E]. }
      assert (E'' : match nth c zls [] with [] => Ok z | _ :: _ => np_iadd z (nth c zls []) end = Ok a) by exact E'.
      rewrite E''. cbn [bind]. destruct (IH a La) as [acc [E3 [L3 H3]]]; [intros; apply Hc; right; assumption|].
      exists acc. split; [exact E3|]. split; [exact L3|]. intros i Hi. rewrite H3, Ha by exact Hi. simpl. lra.
  Qed.

  Lemma child_lt k c : k < n -> In c (children nbrs r par k) -> c < n /\ c <> r /\ par c = k.
  Proof. intros Hk Hc. apply (children_In n nbrs r par dep T k c Hk) in Hc. exact Hc. Qed.

  Lemma child_neq k c : k < n -> In c (children nbrs r par k) -> c <> k.
  Proof.
    intros Hk Hc E. destruct (child_lt k c Hk Hc) as [H1 [H2 H3]]. subst c. exact (par_irrefl n nbrs r par dep T k Hk H2 H3).
  Qed.

  Lemma partial_step done k s : k < n -> ~ In k done -> (forall c, In c (children nbrs r par k) -> In c done) ->
    (forall p, In p done -> p < n /\ ~ In k (children nbrs r par p)) -> bcinv done s ->
    exists s', ti_partial_sum N Ns k s = Ok s' /\ bcinv (done ++ [k]) s'.
  Proof.
    intros Hk Hnd Hch Hdn (L1 & L2 & L3 & L4 & L5 & HC & HB & HZ & HS & HR).
    unfold ti_partial_sum. rewrite !getL by lia. cbn [bind]. rewrite HC, HB by exact Hk. cbv zeta.
    assert (Ez : py_from (- (Z.of_nat N - Z.of_nat Ns)) (nth k (zp s) []) ++ firstn Ns (new k) = zf k).
    { unfold zf, shifted_frame. rewrite HZ by exact Hk. assert (Em : memN k done = false) by (apply memN_notIn; exact Hnd). rewrite Em.
      rewrite py_from_neg_skipn by (rewrite ?Hold by exact Hk; lia).
      f_equal. f_equal. lia. }
    rewrite Ez. rewrite getL by lia. cbn [bind]. rewrite Hup by exact Hk.
    destruct (partial_fold (upd k (zf k) (zl s)) (children nbrs r par k) (zf k) (zf_len k Hk)) as [acc [Ea [La Ha]]].
    { intros c Hc. rewrite upd_length, L3. split; [apply (child_lt k c Hk Hc)|]. rewrite nthL_upd by lia.
      destruct (Nat.eqb_spec k c) as [Ekc|]; [exfalso; apply (child_neq k c Hk Hc); congruence|]. apply HS. apply Hch. exact Hc. }
    rewrite Ea. cbn [bind].
    assert (Ha' : forall i, i < N -> nth i acc 0%R = (nth i (zf k) 0 + lsum (fun c => nth i (nth c (upd k acc (zl s)) []) 0) (children nbrs r par k))%R).
    { intros i Hi. rewrite Ha by exact Hi. f_equal. apply lsum_ext. intros c Hc. rewrite !nthL_upd by lia.
      destruct (Nat.eqb_spec k c) as [Ekc|]; [exfalso; apply (child_neq k c Hk Hc); congruence | reflexivity]. }
    assert (HM : forall q, memN q (done ++ [k]) = memN q done || Nat.eqb q k).
    { intros q. unfold memN. rewrite existsb_app. cbn [existsb]. rewrite orb_false_r. reflexivity. }
    assert (HZ' : forall q, q < n -> nth q (upd k (zf k) (zp s)) [] = if memN q (done ++ [k]) then zf q else old q).
    { intros q Hq. rewrite nthL_upd, HM by lia. rewrite (Nat.eqb_sym q k). destruct (Nat.eqb_spec k q) as [<-|].
      - rewrite orb_true_r. reflexivity. - rewrite orb_false_r. apply HZ. exact Hq. }
    assert (HS' : forall q, In q (done ++ [k]) -> length (nth q (upd k acc (zl s)) []) = N /\
       forall i, i < N -> nth i (nth q (upd k acc (zl s)) []) 0%R =
         (nth i (zf q) 0 + lsum (fun c => nth i (nth c (upd k acc (zl s)) []) 0) (children nbrs r par q))%R).
    { intros q Hq. apply in_app_or in Hq. destruct Hq as [Hq|[<-|[]]].
      - destruct (HS q Hq) as [A B]. destruct (Hdn q Hq) as [Hqn Hqk]. rewrite !nthL_upd by lia.
        destruct (Nat.eqb_spec k q) as [Ekq|]; [exfalso; apply Hnd; rewrite Ekq; exact Hq|]. split; [exact A|]. intros i Hi.
        rewrite B by exact Hi. f_equal. apply lsum_ext. intros c Hc. rewrite nthL_upd by lia.
        destruct (Nat.eqb_spec k c) as [Ekc|]; [exfalso; apply Hqk; rewrite Ekc; exact Hc | reflexivity].
      - rewrite nthL_upd by lia. rewrite Nat.eqb_refl. split; [exact La|]. exact Ha'. }
    assert (HU : k <> r -> In r (done ++ [k]) -> In r done).
    { intros Hkr Hi. apply in_app_or in Hi. destruct Hi as [Hi|[Hi|[]]]; [exact Hi | congruence]. }
    destruct (Nat.eqb_spec r k) as [Erk|Hrk].
    - destruct (np_sub_ok N acc (zf k) La (zf_len k Hk)) as [m [Em [Lm Hm]]]. rewrite Em. cbn [bind].
      eexists. split; [reflexivity|]. unfold bcinv. cbn [zp zpb zl eta etamk cur formed]. rewrite !upd_length.
      do 9 (split; [first [assumption | reflexivity]|]). intros _. rewrite Erk, !nthL_upd, !Nat.eqb_refl by lia. auto.
    - eexists. split; [reflexivity|]. unfold bcinv. cbn [zp zpb zl eta etamk cur formed]. rewrite !upd_length.
      do 9 (split; [first [assumption | reflexivity]|]). intros Hi. destruct (HR (HU (not_eq_sym Hrk) Hi)) as [A [B C]].
      rewrite nthL_upd by lia. destruct (Nat.eqb_spec k r); [congruence|]. auto.
  Qed.

  (** [before a b]: along the list, children come first *)
  Lemma bc_phase bl : forall done s, (forall e, In e bl -> snd e = Bc /\ fst e < n) ->
    NoDup (done ++ map fst bl) -> (forall p, In p done -> p < n) ->
    (forall l1 k l2, done ++ map fst bl = l1 ++ k :: l2 -> forall c, In c (children nbrs r par k) -> In c l1) ->
    bcinv done s ->
    exists s', foldM (ti_event N Ns trees fz) bl s = Ok s' /\ bcinv (done ++ map fst bl) s'.
  Proof.
    induction bl as [|[k ty] bl IH]; intros done s Hl Hnd Hd Hch Hi.
    - exists s. cbn [foldM map]. rewrite app_nil_r. auto.
    - destruct (Hl (k, ty) (or_introl eq_refl)) as [E Hk]. simpl in E, Hk. subst ty. cbn [map fst] in *.
      assert (Hkd : ~ In k done) by (apply NoDup_remove_2 in Hnd; intros Hc; apply Hnd, in_or_app; left; exact Hc).
      destruct (partial_step done k s Hk Hkd) as [s1 [E1 I1]].
      { intros c Hc. exact (Hch done k (map fst bl) eq_refl c Hc). }
      { intros p Hp. split; [exact (Hd p Hp)|]. intros Hc. destruct (in_split p done Hp) as [a [b Eab]].
        assert (Hin : In k a). { apply (Hch a p (b ++ k :: map fst bl)); [rewrite Eab, <- app_assoc; reflexivity | exact Hc]. }
        apply Hkd. rewrite Eab. apply in_or_app. left; exact Hin. }
      { exact Hi. }
      cbn [foldM]. unfold ti_event at 1. cbn [snd fst]. rewrite E1. cbn [bind].
      replace (done ++ k :: map fst bl) with ((done ++ [k]) ++ map fst bl) in * by (rewrite <- app_assoc; reflexivity).
      apply IH; try assumption.
      + intros e He. apply Hl. right; exact He.
      + intros p Hp. apply in_app_or in Hp. destruct Hp as [Hp|[<-|[]]]; auto.
  Qed.

  (** relay *)
  Variable E : list R.
  Hypothesis HE : length E = N.
  Definition reinv (done : list nat) (s : net) : Prop :=
    length (zp s) = n /\ length (zpb s) = n /\ length (zl s) = n /\ length (eta s) = n /\ length (etamk s) = n /\ cur s = Some (ups, r) /\
    (forall k, k < n -> nth k (zp s) [] = zf k) /\
    (forall k, k < n -> k = r \/ In (par k) done ->
       nth k (eta s) [] = E /\ length (nth k (etamk s) []) = N /\
       forall i, i < N -> nth i (nth k (etamk s) []) 0%R = (nth i E 0 - nth i (zf k) 0)%R).

  Lemma relay_fold k us : forall s, k < n -> ~ In k us -> (forall c, In c us -> c < n) ->
    length (zp s) = n -> length (eta s) = n -> length (etamk s) = n ->
    (forall q, q < n -> nth q (zp s) [] = zf q) -> nth k (eta s) [] = E ->
    exists s', foldM (relay_one k) us s = Ok s' /\ zp s' = zp s /\ zpb s' = zpb s /\ zl s' = zl s /\ cur s' = cur s /\ length (eta s') = n /\ length (etamk s') = n /\
      (forall q, q < n -> ~ In q us -> nth q (eta s') [] = nth q (eta s) [] /\ nth q (etamk s') [] = nth q (etamk s) []) /\
      (forall q, q < n -> (In q us \/ (nth q (eta s) [] = E /\ length (nth q (etamk s) []) = N /\
                             forall i, i < N -> nth i (nth q (etamk s) []) 0%R = (nth i E 0 - nth i (zf q) 0)%R)) ->
        nth q (eta s') [] = E /\ length (nth q (etamk s') []) = N /\
        forall i, i < N -> nth i (nth q (etamk s') []) 0%R = (nth i E 0 - nth i (zf q) 0)%R).
  Proof.
    induction us as [|c us IH]; intros s Hk Hku Hus L1 L2 L3 HZ HEk.
    - exists s. cbn [foldM]. repeat (split; [first [reflexivity | assumption]|]). split; [auto|]. intros q Hq [[]|H]; exact H.
    - assert (Hc : c < n) by (apply Hus; left; reflexivity).
      assert (Hck : c <> k) by (intros ->; apply Hku; left; reflexivity).
      cbn [foldM]. unfold relay_one at 1. rewrite !getL by lia. cbn [bind]. rewrite HEk, HZ by exact Hc.
      destruct (np_sub_ok N E (zf c) HE (zf_len c Hc)) as [m [Em [Lm Hm]]].
      assert (Em' : match E with [] => Ok [] | _ :: _ => np_sub E (zf c) end = Ok m).
      { pose proof Em as Em0. destruct E; [simpl in HE; lia | exact Em0]. }
      rewrite Em'. cbn [bind].
      set (s1 := mkNet (zp s) (zpb s) (zl s) (upd c E (eta s)) (upd c m (etamk s)) (cur s) (formed s)).
      destruct (IH s1) as (s' & E' & A1 & Ab & Al & A2 & A3 & A4 & A5 & A6); unfold s1; cbn [zp eta etamk cur]; rewrite ?upd_length; auto.
      { intros Hc'. apply Hku. right; exact Hc'. } { intros q Hq. apply Hus. right; exact Hq. }
      { rewrite nthL_upd by lia. destruct (Nat.eqb_spec c k); [congruence | exact HEk]. }
      exists s'. split; [exact E'|]. do 6 (split; [assumption|]). split.
      + intros q Hq Hqn. destruct (A5 q Hq) as [B1 B2]; [intros Hc'; apply Hqn; right; exact Hc'|].
        unfold s1 in B1, B2. cbn [eta etamk] in B1, B2. rewrite nthL_upd in B1, B2 by lia.
        destruct (Nat.eqb_spec c q) as [->|]; [exfalso; apply Hqn; left; reflexivity | auto].
      + intros q Hq HH. apply A6; [exact Hq|]. unfold s1. cbn [eta etamk]. rewrite !nthL_upd by lia.
        destruct (Nat.eqb_spec c q) as [<-|Hcq]; [right; auto|]. destruct HH as [[Hcq'|HH]|HH]; [congruence | left; exact HH | right; exact HH].
  Qed.

  Lemma re_phase rl : forall done s, (forall e, In e rl -> snd e = Re /\ fst e < n) ->
    (forall l1 k l2, done ++ map fst rl = l1 ++ k :: l2 -> k = r \/ In (par k) l1) ->
    reinv done s ->
    exists s', foldM (ti_event N Ns trees fz) rl s = Ok s' /\ reinv (done ++ map fst rl) s'.
  Proof.
    induction rl as [|[k ty] rl IH]; intros done s Hl Hp Hi.
    - exists s. cbn [foldM map]. rewrite app_nil_r. auto.
    - destruct (Hl (k, ty) (or_introl eq_refl)) as [Et Hk]. simpl in Et, Hk. subst ty. cbn [map fst] in *.
      destruct Hi as (L1 & Lb & Ll & L2 & L3 & HC & HZ & HH).
      assert (Hpk := Hp done k (map fst rl) eq_refl). destruct (HH k Hk Hpk) as [HEk _].
      destruct (relay_fold k (children nbrs r par k) s Hk) as (s1 & E1 & A1 & Ab & Al & A2 & A3 & A4 & A5 & A6); try assumption.
      { intros Hc. exact (child_neq k k Hk Hc eq_refl). } { intros c Hc. apply (child_lt k c Hk Hc). }
      cbn [foldM]. unfold ti_event at 1. cbn [snd fst]. unfold ti_relay. rewrite HC, getL by lia. cbn [bind]. rewrite Hup by exact Hk.
      rewrite E1. cbn [bind].
      replace (done ++ k :: map fst rl) with ((done ++ [k]) ++ map fst rl) in * by (rewrite <- app_assoc; reflexivity).
      apply IH; [intros e He; apply Hl; right; exact He | exact Hp |].
      unfold reinv. rewrite A1, Ab, Al, A2. do 7 (split; [assumption|]). intros q Hq HQ. apply A6; [exact Hq|].
      destruct HQ as [HQ|HQ]; [right; apply HH; auto|]. apply in_app_or in HQ. destruct HQ as [HQ|[HQ|[]]]; [right; apply HH; auto|].
      destruct (Nat.eq_dec q r) as [Eqr|Hqr]; [right; apply HH; auto|].
      left. apply (children_In n nbrs r par dep T k q Hk). auto.
  Qed.
End Phases.
