(** Runs of in-network sums over changing trees. *)
From Verif Require Import Base BaseFacts Sched SchedSpec Buffers BufFacts ChunkSpec Tree TreeSpec InNet InNetSpec InNetFacts3.
From Coq Require Import Reals Sorted.
Open Scope nat_scope.

Lemma foldM_keep {S E} (f : S -> E -> res S) (P : S -> S -> Prop) :
  (forall s, P s s) -> (forall a b c, P a b -> P b c -> P a c) -> (forall s e s', f s e = Ok s' -> P s s') ->
  forall es s s', foldM f es s = Ok s' -> P s s'.
Proof.
  intros Hr Ht Hf. induction es as [|e es IH]; intros s s' H; cbn [foldM] in H; [injection H as <-; apply Hr|].
  destruct (f s e) as [s1|] eqn:E1; [|discriminate]. cbn [bind] in H. exact (Ht _ _ _ (Hf _ _ _ E1) (IH _ _ H)).
Qed.

Lemma event_formed N Ns trees fz s e s' : ti_event N Ns trees fz s e = Ok s' -> formed s' = formed s + trees_formed [e].
Proof.
  unfold ti_event, trees_formed. destruct e as [k []]; cbn [fst snd filter length]; rewrite ?Nat.add_0_r.
  all: try (unfold ti_new_tree; destruct (get trees (formed s)); cbn [bind]; [|discriminate]; intros H; injection H as <-; cbn [formed]; lia).
  all: try (unfold ti_fuse; destruct (get (zpb s) k); cbn [bind]; [|discriminate]; destruct (fz k); intros H; injection H as <-; reflexivity).
  all: try (unfold ti_partial_sum; destruct (get (zp s) k); cbn [bind]; [|discriminate]; destruct (get (zpb s) k); cbn [bind]; [|discriminate];
    destruct (cur s) as [[ups root]|]; [|discriminate]; destruct (get ups k); cbn [bind]; [|discriminate];
    match goal with |- context [foldM ?f ?l ?z] => destruct (foldM f l z) end; cbn [bind]; [|discriminate];
    destruct (Nat.eqb root k); [match goal with |- context [np_sub ?a ?b] => destruct (np_sub a b) end; cbn [bind]; [|discriminate]|]; intros H; injection H as <-; reflexivity).
  all: try (unfold ti_relay; destruct (cur s) as [[ups root]|]; [|discriminate]; destruct (get ups k); cbn [bind]; [|discriminate];
    apply (foldM_keep (relay_one k) (fun a b => formed b = formed a)); [reflexivity|congruence|];
    intros s0 l0 s1; unfold relay_one; destruct (get (eta s0) k) as [e0|]; cbn [bind]; [|discriminate]; destruct (get (zp s0) l0); cbn [bind]; [|discriminate];
    destruct e0; [cbn [bind]; intros H; injection H as <-; reflexivity|];
    match goal with |- context [np_sub ?a ?b] => destruct (np_sub a b) end; cbn [bind]; [|discriminate]; intros H; injection H as <-; reflexivity).
  all: intros H; injection H as <-; reflexivity.
Qed.

Lemma instant_formed N Ns trees fz evs : forall s s', ti_instant N Ns trees fz evs s = Ok s' -> formed s' = formed s + trees_formed evs.
Proof.
  unfold ti_instant. induction evs as [|e evs IH]; intros s s' H; cbn [foldM] in H; [injection H as <-; cbn; lia|].
  destruct (ti_event N Ns trees fz s e) as [s1|] eqn:E1; [|discriminate]. cbn [bind] in H. apply IH in H. apply event_formed in E1.
  rewrite H, E1. unfold trees_formed. cbn [filter]. destruct (match snd e with Tr => true | _ => false end); cbn [length]; lia.
Qed.

Lemma formed_S ins j : S j < length ins -> formed_upto ins (S j) = formed_upto ins j + trees_formed (snd (nth (S j) ins i0)).
Proof.
  intros H. unfold formed_upto. rewrite <- (firstn_skipn (S j) (firstn (S (S j)) ins)), map_app, list_sum_app, firstn_firstn, Nat.min_l by lia. f_equal.
  rewrite skipn_firstn_comm. replace (S (S j) - S j) with 1 by lia.
  rewrite <- (firstn_skipn (S j) ins) at 2. rewrite app_nth2 by (rewrite firstn_length; lia). rewrite firstn_length, Nat.min_l, Nat.sub_diag by lia.
  pose proof (skipn_length (S j) ins). destruct (skipn (S j) ins) as [|a l]; [cbn in *; lia|]. cbn. lia.
Qed.
Lemma firstn_next {A} (l : list A) j d : j < length l -> firstn (S j) l = firstn j l ++ [nth j l d].
Proof. revert j. induction l as [|a l IH]; intros [|j] H; cbn [length] in H; try lia; [reflexivity|]. cbn [firstn nth app]. f_equal. apply IH. lia. Qed.

Lemma sum_same n f g : (forall q, q < n -> f q = g q) -> sumR n f = sumR n g.
Proof. induction n; intros H; cbn [sumR]; [reflexivity|]. rewrite IHn by (intros; apply H; lia). now rewrite H by lia. Qed.

Lemma well_shaped0 n N : well_shaped n N (net0 N n).
Proof.
  unfold well_shaped, net0. cbn [zp zpb zl eta etamk]. rewrite !repeat_length. repeat (split; [reflexivity|]). intros k Hk.
  assert (E : nth k (repeat (repeat 0%R N) n) [] = repeat 0%R N) by (apply (repeat_spec n), nth_In; now rewrite repeat_length).
  rewrite E. apply repeat_length.
Qed.

Lemma run_sums n N Ns trees ins : 0 < Ns < N ->
  (forall j, j < length ins -> trees_formed (snd (nth j ins i0)) <= 1 /\ full_instant n Ns trees (formed_upto ins j - 1) (nth j ins i0)) ->
  0 < formed_upto ins 0 ->
  forall j, j < length ins -> exists s, ti_run N Ns trees (firstn (S j) ins) (net0 N n) = Ok s /\ well_shaped n N s /\
    formed s = formed_upto ins j /\ cur s = nth_error trees (formed_upto ins j - 1) /\
    forall k, k < n ->
      let z q := frame_after N Ns (firstn (S j) ins) q in
      nth k (zp s) [] = z k /\ length (nth k (eta s) []) = N /\ length (nth k (etamk s) []) = N /\
      forall i, i < N ->
        nth i (nth k (eta s) []) 0%R = sumR n (fun q => nth i (z q) 0%R) /\
        nth i (nth k (etamk s) []) 0%R = sumR n (fun q => if Nat.eqb q k then 0%R else nth i (z q) 0%R).
Proof.
  intros HNs Hins H0.
  assert (Step : forall j s, j < length ins -> well_shaped n N s ->
    in_use trees s (snd (nth j ins i0)) (match nth_error trees (formed_upto ins j - 1) with Some t => t | None => ([], 0) end) ->
    (forall k, k < n -> nth k (zp s) [] = frame_after N Ns (firstn j ins) k) ->
    formed s + trees_formed (snd (nth j ins i0)) = formed_upto ins j ->
    ti_run N Ns trees (firstn j ins) (net0 N n) = Ok s ->
    exists s, ti_run N Ns trees (firstn (S j) ins) (net0 N n) = Ok s /\ well_shaped n N s /\
    formed s = formed_upto ins j /\ cur s = nth_error trees (formed_upto ins j - 1) /\
    forall k, k < n ->
      let z q := frame_after N Ns (firstn (S j) ins) q in
      nth k (zp s) [] = z k /\ length (nth k (eta s) []) = N /\ length (nth k (etamk s) []) = N /\
      forall i, i < N ->
        nth i (nth k (eta s) []) 0%R = sumR n (fun q => nth i (z q) 0%R) /\
        nth i (nth k (etamk s) []) 0%R = sumR n (fun q => if Nat.eqb q k then 0%R else nth i (z q) 0%R)).
  { intros j s Hj HW HU Hz Hf HR. destruct (Hins j Hj) as (H1 & nbrs & r & st & o & HT & Hr & Ho & Et & Hfz & Hs & Hnd & Hall & Hlt).
    rewrite Et in HU |- *.
    set (new := fun k => match fst (nth j ins i0) k with Some z => z | None => [] end).
    destruct (in_network_sum n N Ns nbrs r st o trees (fst (nth j ins i0)) new (snd (nth j ins i0)) s HT Hr Ho HNs HW HU) as (s' & E & HW' & Hc & Hk); try assumption.
    { intros k Hk. destruct (Hfz k Hk) as (z & Ez & Hz'). unfold new. rewrite Ez. now split. }
    exists s'. rewrite (firstn_next ins j i0) by exact Hj. unfold ti_run in *. rewrite foldM_app, HR. cbn [bind foldM]. rewrite E. cbn [bind]. split; [reflexivity|].
    split; [exact HW'|]. split; [now rewrite (instant_formed _ _ _ _ _ _ _ E)|]. split; [exact Hc|].
    assert (Ez : forall q, q < n -> shifted_frame N Ns (nth q (zp s) []) (new q) = frame_after N Ns (firstn j ins ++ [nth j ins i0]) q).
    { intros q Hq. unfold frame_after. rewrite fold_left_app. cbn [fold_left]. unfold new. destruct (Hfz q Hq) as (z & Ez & _). rewrite Ez. now rewrite Hz. }
    intros k Hkn. destruct (Hk k Hkn) as (A & B & C & D). cbn zeta in *. rewrite Ez in A by exact Hkn. split; [exact A|]. split; [exact B|]. split; [exact C|].
    intros i Hi. destruct (D i Hi) as (D1 & D2). split; [rewrite D1|rewrite D2]; apply sum_same; intros q Hq; rewrite Ez by exact Hq; reflexivity. }
  assert (One : forall j s, j < length ins -> trees_formed (snd (nth j ins i0)) = 1 -> formed s + 1 = formed_upto ins j ->
    in_use trees s (snd (nth j ins i0)) (match nth_error trees (formed_upto ins j - 1) with Some t => t | None => ([], 0) end)).
  { intros j s Hj H1 Hf. unfold in_use. unfold trees_formed in H1. destruct (filter _ (snd (nth j ins i0))) as [|a [|b l]]; try discriminate.
    destruct (Hins j Hj) as (_ & nbrs & r & st & o & _ & _ & _ & Et & _). replace (formed s) with (formed_upto ins j - 1) by lia. now rewrite Et. }
  intros j. induction j as [|j IH]; intros Hj.
  - assert (Hf0 : formed_upto ins 0 = trees_formed (snd (nth 0 ins i0))).
    { unfold formed_upto. destruct ins as [|a l]; [cbn in Hj; lia|]. cbn. lia. }
    assert (H1 : trees_formed (snd (nth 0 ins i0)) = 1) by (destruct (Hins 0 Hj); lia).
    apply (Step 0 (net0 N n) Hj (well_shaped0 n N)).
    + apply One; [exact Hj|exact H1|]. rewrite Hf0, H1. reflexivity.
    + intros k Hk. unfold net0. cbn [zp firstn]. unfold frame_after. cbn [fold_left]. apply (repeat_spec n), nth_In. now rewrite repeat_length.
    + rewrite Hf0. reflexivity.
    + reflexivity.
  - destruct IH as (s & HR & HW & Hf & Hc & Hk); [lia|]. pose proof (formed_S ins j Hj) as HS.
    destruct (Hins (S j) Hj) as (H1 & HF).
    apply (Step (S j) s Hj HW).
    + destruct (Nat.eq_dec (trees_formed (snd (nth (S j) ins i0))) 1) as [E1|E1]; [apply One; [exact Hj|exact E1|lia]|].
      assert (E0 : trees_formed (snd (nth (S j) ins i0)) = 0) by lia. unfold in_use. unfold trees_formed in E0.
      destruct (filter _ (snd (nth (S j) ins i0))) eqn:EF; [|discriminate]. assert (Efu : formed_upto ins (S j) = formed_upto ins j) by (rewrite HS; unfold trees_formed; rewrite EF; cbn [length]; lia).
      rewrite Efu, Hc. destruct HF as (nbrs & r & st & o & _ & _ & _ & Et & _). rewrite Efu in Et. now rewrite Et.
    + intros k Hkn. now destruct (Hk k Hkn).
    + lia.
    + exact HR.
Qed.
