(** Complete runs of topology-independent DANSE: runs. *)
From Verif Require Import Base BaseFacts Sched SchedSpec Buffers BufFacts ChunkSpec Chunk ChunkFacts Wola Dist Online Filt Scm Ext Full
  Tree TreeSpec InNet InNetSpec InNetFacts InNetFacts2 InNetFacts3 InNetFacts4 TiRun TiSpec TiFacts TiFacts2 TiFacts3 LatestFacts2.
From Coq Require Import Reals Sorted.
Local Open Scope nat_scope.

Lemma run_refines n c y trees sched :
  (0 < p_Ns (o_p (tc_o c)) < p_N (o_p (tc_o c)))%Z -> enough c ->
  forall c0 s, within_signals c y sched -> regular n trees c0 sched -> 0 < n -> shaped n c s ->
  formed (ts_net s) = c0 -> (0 < c0 -> cur (ts_net s) = nth_error trees (c0 - 1)) ->
  refines n c (ideal_run c y sched (view s)) (ti_full_run c y trees sched s) (fun _ => True).
Proof.
  intros HN HE. induction sched as [|i sched IH]; intros c0 s HS HR Hn HSh Hf Hc.
  { cbn. exists s. auto. }
  cbn [regular] in HR. destruct HR as (HL & H1 & Hi & HR).
  unfold ideal_run, ti_full_run. cbn [foldM].
  assert (HS' : within_signals c y sched) by (intros j k sn yk col Hj; apply HS; now right).
  destruct Hi as [(k & Ek & Hlt)|(Hpos & nbrs & r & st & o & HT & Hr & Ho & Et & Hsort & Hnd & Hall & Hin)].
  - assert (EX : exchanges i = false) by (unfold exchanges; rewrite Ek; reflexivity). rewrite EX. cbn [bind].
    unfold ti_full_instant at 1. unfold marks. rewrite Ek in HL |- *. destruct (in_byp i) as [|b [|? ?]]; cbn in HL; try lia. cbn [map app combine length repeat foldM].
    unfold ti_full_event. cbn [fst snd]. unfold ti_new_tree, get. rewrite Hf. destruct (nth_error trees c0) as [tr|] eqn:Etr; [|apply nth_error_None in Etr; lia]. cbn [bind].
    rewrite Ek in HR. change (trees_formed [(k, Tr)]) with 1 in HR.
    match goal with |- refines _ _ _ (foldM _ _ ?s1) _ => set (s1' := s1) end.
    change (view s) with (view s1'). apply (IH (c0 + 1) s1' HS' HR Hn).
    + destruct HSh as (A & B). split; [exact A|exact B].
    + unfold s1'. cbn [ts_net formed]. lia.
    + intros _. unfold s1'. cbn [ts_net cur]. replace (c0 + 1 - 1) with c0 by lia. now rewrite Etr.
  - assert (EX : exchanges i = true). { unfold exchanges. apply existsb_exists. exists (0, Fu). split; [apply Hall; exact Hn|reflexivity]. }
    rewrite EX.
    assert (HU : in_use trees (ts_net s) (in_evs i) (o_up st, r)).
    { unfold in_use. unfold trees_formed in *. destruct (filter _ (in_evs i)) as [|e [|? ?]] eqn:EF; cbn [length] in *; [| |lia].
      - rewrite Hc by lia. rewrite Nat.add_0_r in Et. exact Et.
      - rewrite Hf. replace (c0 + 1 - 1) with c0 in Et by lia. exact Et. }
    assert (HI := instant_refines n c y trees nbrs r st o i s HN HE (fun k sn yk col A B C => HS i k sn yk col (or_introl eq_refl) EX A B C) HT Hr Ho HL Hsort Hnd Hall Hin HSh HU).
    unfold refines in HI. destruct (ideal_instant c y (in_t i) (updates_of i) (view s)) as [l1|x1]; cbn [bind].
    + destruct HI as (s1 & E1 & Sh1 & V1 & C1 & F1). rewrite E1. cbn [bind]. rewrite <- V1.
      apply (IH (c0 + trees_formed (in_evs i)) s1 HS' HR Hn Sh1); [lia|]. intros _. rewrite C1. now rewrite Et.
    + destruct HI as (e & Ee). rewrite Ee. cbn [bind refines]. eauto.
Qed.

Lemma start_shaped c nodes : shaped (length nodes) c (ti_start c nodes).
Proof. split; [reflexivity|]. apply well_shaped0. Qed.
Lemma start_view c nodes : view (ti_start c nodes) = ideal_start c nodes.
Proof.
  apply (view_eq (length nodes) c); [apply start_shaped|unfold ideal_start; now rewrite map_length|]. intros k nd Hk Ek. cbn [ti_start ts_nodes ts_net] in *.
  unfold ideal_start. rewrite nth_error_map, Ek. cbn [option_map]. unfold net0. cbn [zp zpb]. do 2 f_equal.
  - symmetry. apply nth_repeat.
  - symmetry. apply (repeat_spec (length nodes)). apply nth_In. now rewrite repeat_length.
Qed.

Lemma ideal_run_same c y : forall s1 s2 l,
  Forall2 (fun i j => in_t i = in_t j /\ forall k, updates_of i k = updates_of j k) (filter exchanges s1) (filter exchanges s2) ->
  ideal_run c y s1 l = ideal_run c y s2 l.
Proof.
  assert (Hfil : forall s l, ideal_run c y s l = foldM (fun l i => ideal_instant c y (in_t i) (updates_of i) l) (filter exchanges s) l).
  { unfold ideal_run. induction s as [|i s IH]; intros l; [reflexivity|]. cbn [foldM filter]. destruct (exchanges i); cbn [bind foldM]; [|apply IH].
    destruct (ideal_instant c y (in_t i) (updates_of i) l); cbn [bind]; [apply IH|reflexivity]. }
  intros s1 s2 l H. rewrite !Hfil. clear Hfil. revert l. induction H as [|i j l1 l2 (Ht & Hu) _ IH]; intros l; [reflexivity|]. cbn [foldM].
  assert (E : ideal_instant c y (in_t i) (updates_of i) l = ideal_instant c y (in_t j) (updates_of j) l).
  { unfold ideal_instant. rewrite Ht. destruct (each (ideal_fuse c y (in_t j)) l) as [l'|]; cbn [bind]; [|reflexivity]. unfold each. apply mapM_ext. intros k _.
    destruct (get l' k); cbn [bind]; [|reflexivity]. unfold ideal_update. now rewrite Hu. }
  rewrite E. destruct (ideal_instant c y (in_t j) (updates_of j) l); cbn [bind]; [apply IH|reflexivity].
Qed.

(** ** Broadcasts of fewer samples than the hop *)
Lemma in_upd {A} (x a : A) k l : In a (upd k x l) -> a = x \/ In a l.
Proof.
  revert k. induction l as [|b l IH]; intros [|k] H; cbn in H; [destruct H|destruct H|destruct H as [H|H]; [left; congruence|right; now right]|].
  destruct H as [H|H]; [right; now left|]. destruct (IH _ H) as [->|]; [now left|right; now right].
Qed.
Lemma get_in {A} (l : list A) k x : get l k = Ok x -> In x l.
Proof. unfold get. destruct (nth_error l k) eqn:E; [|discriminate]. intros H. injection H as <-. now apply nth_error_In in E. Qed.
Lemma iadd_len a b z : np_iadd a b = Ok z -> length z = length a.
Proof.
  unfold np_iadd. destruct (Nat.eqb_spec (length a) (length b)) as [E|E].
  - intros H. injection H as <-. now apply map2_length.
  - destruct b as [|x [|? ?]]; try discriminate. intros H. injection H as <-. apply map_length.
Qed.
Lemma sub_len a b z : 2 <= length a -> 2 <= length b -> np_sub a b = Ok z -> length z = length a.
Proof.
  intros Ha Hb. unfold np_sub. destruct (Nat.eqb_spec (length a) (length b)) as [E|E].
  - intros H. injection H as <-. now apply map2_length.
  - destruct a as [|x [|x' a]], b as [|u [|u' b]]; cbn in *; try lia; discriminate.
Qed.
Lemma partial_len zls l : forall acc z, foldM (add_partial zls) l acc = Ok z -> length z = length acc.
Proof.
  induction l as [|q l IH]; intros acc z H; cbn [foldM] in H; [congruence|]. unfold add_partial at 1 in H. destruct (get zls q) as [u|]; cbn [bind] in H; [|discriminate].
  destruct u as [|v u]; cbn [bind] in H; [now apply IH|]. destruct (np_iadd acc (v :: u)) as [a|] eqn:Ea; cbn [bind] in H; [|discriminate].
  rewrite (IH _ _ H). now apply iadd_len in Ea.
Qed.

Section Short.
  Variables (c : tcfg) (y : list (list (list R))) (trees : list otree).
  Let L := Z.to_nat (p_L (o_p (tc_o c))).
  Hypothesis HN : tc_Ns c + 2 <= tc_N c.
  Hypothesis HL : L < tc_Ns c.
  Hypothesis Hfew : p_whole (o_p (tc_o c)) = false.
  Hypothesis Heff : p_efficient (o_p (tc_o c)) = false.

  Lemma short_fusion t k buf nd r : ti_fusion c y t k buf nd = Ok r -> fst r = None \/ exists z, fst r = Some z /\ length z = L.
  Proof.
    unfold ti_fusion. destruct (get (o_nodes (tc_o c)) k) as [sn|]; cbn [bind]; [|discriminate]. destruct (get y k) as [yk|]; cbn [bind]; [|discriminate].
    destruct (mapM _ yk) as [fr|]; cbn [bind]; [|discriminate]. destruct (existsb _ (chunk_cols fr)); [intros H; injection H as <-; now left|].
    destruct (get (x_ext (tn_x nd)) (x_i (tn_x nd))) as [w|]; cbn [bind]; [|discriminate]. rewrite Hfew, Heff.
    match goal with |- bind ?a _ = _ -> _ => destruct a as [wir|] end; cbn [bind]; [|discriminate].
    destruct (compress_few_samples _ wir _ _) as [z|] eqn:Ez; cbn [bind]; [|discriminate]. intros H. injection H as <-. right. exists z. split; [reflexivity|].
    exact (few_length _ _ _ _ _ Ez).
  Qed.

  (** frames without all their samples *)
  Definition deficient (z : list R) : Prop := tc_N c - tc_Ns c <= length z < tc_N c.
  Definition short_net (s : net) : Prop :=
    (forall z, In z (zp s) -> length z = tc_N c \/ deficient z) /\ (forall z, In z (zpb s) -> length z <= L) /\
    (forall z, In z (zl s) -> z = [] \/ deficient z) /\ (forall z, In z (eta s) -> z = [] \/ deficient z) /\ (forall z, In z (etamk s) -> z = [] \/ deficient z).

  Lemma short_start n : short_net (net0 (tc_N c) n).
  Proof.
    unfold short_net, net0. cbn [zp zpb zl eta etamk]. repeat split; intros z Hz; apply repeat_spec in Hz; subst z; auto; [|cbn; lia]. left. apply repeat_length.
  Qed.

  Lemma short_bc k s s' : short_net s -> ti_partial_sum (tc_N c) (tc_Ns c) k s = Ok s' -> short_net s'.
  Proof.
    intros (H1 & H2 & H3 & H4 & H5). unfold ti_partial_sum. destruct (get (zp s) k) as [z0|] eqn:E1; cbn [bind]; [|discriminate].
    destruct (get (zpb s) k) as [b|] eqn:E2; cbn [bind]; [|discriminate]. apply get_in in E1, E2. specialize (H2 b E2) as Hb.
    set (z := py_from (- (Z.of_nat (tc_N c) - Z.of_nat (tc_Ns c))) z0 ++ firstn (tc_Ns c) b).
    assert (Hz : deficient z).
    { unfold deficient, z. rewrite app_length, firstn_length. assert (Hpf : length (py_from (- (Z.of_nat (tc_N c) - Z.of_nat (tc_Ns c))) z0) = tc_N c - tc_Ns c).
      { unfold py_from, py_bound. rewrite skipn_length. destruct (H1 z0 E1) as [E|E]; unfold deficient in *; destruct (Z.ltb_spec (- (Z.of_nat (tc_N c) - Z.of_nat (tc_Ns c))) 0); lia. }
      lia. }
    destruct (cur s) as [[ups root]|]; [|discriminate]. destruct (get ups k) as [us|]; cbn [bind]; [|discriminate].
    destruct (foldM (add_partial (upd k z (zl s))) us z) as [acc|] eqn:Ea; cbn [bind]; [|discriminate]. apply partial_len in Ea.
    assert (Hacc : deficient acc) by (unfold deficient in *; lia).
    destruct (Nat.eqb root k).
    - destruct (np_sub acc z) as [d|] eqn:Ed; cbn [bind]; [|discriminate]. apply sub_len in Ed; [|unfold deficient in *; lia|unfold deficient in *; lia].
      intros H. injection H as <-. unfold short_net. cbn [zp zpb zl eta etamk]. repeat split; auto; intros u Hu; apply in_upd in Hu; destruct Hu as [->|Hu]; auto. right. unfold deficient in *. lia.
    - intros H. injection H as <-. unfold short_net. cbn [zp zpb zl eta etamk]. repeat split; auto; intros u Hu; apply in_upd in Hu; destruct Hu as [->|Hu]; auto.
  Qed.

  Lemma short_re k s s' : short_net s -> ti_relay k s = Ok s' -> short_net s'.
  Proof.
    intros HS. unfold ti_relay. destruct (cur s) as [[ups root]|]; [|discriminate]. destruct (get ups k) as [us|]; cbn [bind]; [|discriminate].
    revert s HS. induction us as [|l us IH]; intros s HS H; cbn [foldM] in H; [injection H as <-; exact HS|].
    destruct (relay_one k s l) as [s1|] eqn:E1; cbn [bind] in H; [|discriminate]. apply (IH s1); [|exact H]. clear IH H.
    destruct HS as (H1 & H2 & H3 & H4 & H5). unfold relay_one in E1. destruct (get (eta s) k) as [e|] eqn:Ee; cbn [bind] in E1; [|discriminate].
    destruct (get (zp s) l) as [z|] eqn:Ez; cbn [bind] in E1; [|discriminate]. apply get_in in Ee, Ez. specialize (H4 e Ee) as He. specialize (H1 z Ez) as Hz.
    destruct e as [|x e]; cbn [bind] in E1.
    - injection E1 as <-. unfold short_net. cbn [zp zpb zl eta etamk]. repeat split; auto; intros u Hu; apply in_upd in Hu; destruct Hu as [->|Hu]; auto.
    - destruct He as [He|He]; [discriminate|]. destruct (np_sub (x :: e) z) as [d|] eqn:Ed; cbn [bind] in E1; [|discriminate].
      apply sub_len in Ed; [|unfold deficient in *; lia|unfold deficient in *; lia]. injection E1 as <-. unfold short_net. cbn [zp zpb zl eta etamk].
      repeat split; auto; intros u Hu; apply in_upd in Hu; destruct Hu as [->|Hu]; auto. right. unfold deficient in *. rewrite Ed. exact He.
  Qed.

  Lemma short_update t k b em nd : em = [] \/ deficient em -> exists e, ti_update c y t k b em nd = Err e.
  Proof.
    intros Hem. unfold ti_update. destruct (get (o_nodes (tc_o c)) k) as [sn|]; cbn [bind]; [|eauto]. destruct (get y k) as [yk|]; cbn [bind]; [|eauto].
    destruct (mapM _ yk) as [fr|]; cbn [bind]; [|eauto]. match goal with |- context [bind ?a _] => destruct a as [be|] end; cbn [bind]; [|eauto].
    rewrite existsb_app. cbn [existsb].
    assert (E : negb (Z.of_nat (length em) =? p_N (o_p (tc_o c)))%Z = true).
    { apply negb_true_iff, Z.eqb_neq. unfold deficient, tc_N, tc_Ns in *. destruct Hem as [-> | Hem]; cbn [length]; lia. }
    rewrite E. rewrite orb_true_r. eauto.
  Qed.

  Lemma short_event t s e s' : short_net (ts_net s) -> ti_full_event c y trees t s e = Ok s' -> snd (fst e) <> Up /\ short_net (ts_net s').
  Proof.
    intros HS. unfold ti_full_event. destruct (snd e) as [b|]; [|discriminate]. destruct (snd (fst e)).
    - unfold ti_new_tree. destruct (get trees _) as [tr|]; cbn [bind]; [|discriminate]. intros H. injection H as <-. split; [discriminate|]. exact HS.
    - destruct (get (ts_nodes s) (fst (fst e))) as [nd|]; cbn [bind]; [|discriminate]. destruct (get (zpb (ts_net s)) (fst (fst e))) as [buf|] eqn:Eb; cbn [bind]; [|discriminate].
      destruct (ti_fusion c y t (fst (fst e)) buf nd) as [r|] eqn:Er; cbn [bind]; [|discriminate]. unfold ti_fuse. rewrite Eb. cbn [bind].
      apply short_fusion in Er. destruct HS as (H1 & H2 & H3 & H4 & H5). destruct (fst r) as [z|]; cbn [bind]; intros H; injection H as <-; (split; [discriminate|]); cbn [ts_net]; [|now repeat split].
      destruct Er as [Er|(z' & Ez & Lz)]; [discriminate|]. injection Ez as <-. unfold short_net. cbn [zp zpb zl eta etamk]. repeat split; auto.
      intros u Hu. apply in_upd in Hu. destruct Hu as [->|Hu]; [lia|auto].
    - destruct (ti_partial_sum _ _ _ _) as [n|] eqn:En; cbn [bind]; [|discriminate]. intros H. injection H as <-. split; [discriminate|]. exact (short_bc _ _ _ HS En).
    - destruct (ti_relay _ _) as [n|] eqn:En; cbn [bind]; [|discriminate]. intros H. injection H as <-. split; [discriminate|]. exact (short_re _ _ _ HS En).
    - destruct (get (ts_nodes s) (fst (fst e))) as [nd|]; cbn [bind]; [|discriminate]. destruct (get (etamk (ts_net s)) (fst (fst e))) as [em|] eqn:Eb; cbn [bind]; [|discriminate].
      apply get_in in Eb. destruct HS as (H1 & H2 & H3 & H4 & H5). destruct (short_update t (fst (fst e)) b em nd (H5 em Eb)) as (x & Ex). rewrite Ex. discriminate.
  Qed.

  Lemma short_run sched : forall s s', short_net (ts_net s) -> ti_full_run c y trees sched s = Ok s' ->
    forall i k, In i sched -> length (in_byp i) = length (in_evs i) -> ~ In (k, Up) (in_evs i).
  Proof.
    unfold ti_full_run. induction sched as [|i0 sched IH]; intros s s' HS H i k Hi; [destruct Hi|]. cbn [foldM] in H.
    destruct (ti_full_instant c y trees s i0) as [s1|] eqn:E1; cbn [bind] in H; [|discriminate].
    assert (A : short_net (ts_net s1) /\ forall e, In e (marks i0) -> snd (fst e) <> Up).
    { clear H Hi. unfold ti_full_instant in E1. revert s HS E1. induction (marks i0) as [|e M IHM]; intros s HS E1; cbn [foldM] in E1; [injection E1 as <-; split; [exact HS|intros e []]|].
      destruct (ti_full_event c y trees (in_t i0) s e) as [s2|] eqn:E2; cbn [bind] in E1; [|discriminate]. destruct (short_event _ _ _ _ HS E2) as (B1 & B2).
      destruct (IHM s2 B2 E1) as (C1 & C2). split; [exact C1|]. intros e' [<-|He]; auto. }
    destruct A as (A1 & A2). destruct Hi as [<-|Hi]; [|exact (IH s1 s' A1 H i k Hi)].
    intros HLb Hin. destruct (marks_ok i0 HLb) as (EM & _ & _). rewrite <- EM in Hin. apply in_map_iff in Hin. destruct Hin as (e & Ee & He). apply (A2 e He). now rewrite Ee.
  Qed.
End Short.
