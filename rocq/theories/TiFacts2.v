(** Complete runs of topology-independent DANSE: an instant with an exchange of signals. *)
From Verif Require Import Base BaseFacts Sched SchedSpec Buffers BufFacts ChunkSpec Chunk ChunkFacts Wola Dist Online Filt Scm Ext Full
  Tree TreeSpec InNet InNetSpec InNetFacts InNetFacts2 InNetFacts3 InNetFacts4 TiRun TiSpec TiFacts LatestFacts2.
From Coq Require Import Reals Sorted.
Local Open Scope nat_scope.

(** ** [each] *)
Lemma each_ok {A} (f : nat -> A -> res A) l l' : each f l = Ok l' ->
  length l' = length l /\ forall k a, nth_error l k = Some a -> exists b, f k a = Ok b /\ nth_error l' k = Some b.
Proof.
  unfold each. intros H. split; [now rewrite (mapM_length _ _ _ H), seq_length|]. intros k a Ha.
  assert (Hk : k < length l) by (apply nth_error_Some; congruence).
  destruct (mapM_nth _ _ _ k k H) as (b & B1 & B2). { rewrite nth_error_nth' with (d := 0) by (now rewrite seq_length). now rewrite seq_nth. }
  unfold get in B2. rewrite Ha in B2. cbn [bind] in B2. exists b. now split.
Qed.
Lemma each_intro {A} (f : nat -> A -> res A) l l' : length l' = length l ->
  (forall k a, nth_error l k = Some a -> exists b, f k a = Ok b /\ nth_error l' k = Some b) -> each f l = Ok l'.
Proof.
  intros HL H. destruct (mapM_total (fun k => do s <- get l k; f k s) (seq 0 (length l))) as (l2 & E2).
  { intros k Hk. apply in_seq in Hk. destruct (nth_error l k) as [a|] eqn:Ea; [|apply nth_error_None in Ea; lia].
    destruct (H k a Ea) as (b & B1 & _). exists b. unfold get. rewrite Ea. exact B1. }
  unfold each. rewrite E2. f_equal. assert (E2' := E2). fold (each f l) in E2'. apply each_ok in E2'. destruct E2' as (HL2 & H2).
  apply nth_error_ext. intros k. destruct (nth_error l k) as [a|] eqn:Ea.
  - destruct (H k a Ea) as (b & B1 & B2), (H2 k a Ea) as (b' & C1 & C2). congruence.
  - apply nth_error_None in Ea. rewrite (proj2 (nth_error_None _ _)) by lia. symmetry. apply nth_error_None. lia.
Qed.
Lemma mapM_err {A B} (f : A -> res B) l x : mapM f l = Err x -> exists a, In a l /\ f a = Err x.
Proof.
  induction l as [|a l IH]; cbn [mapM]; [discriminate|]. destruct (f a) as [b|e] eqn:Ea; cbn [bind].
  - destruct (mapM f l) as [bs|e] eqn:El; cbn [bind]; [discriminate|]. intros H. injection H as ->. destruct IH as (a' & H1 & H2); [reflexivity|].
    exists a'. split; [now right|exact H2].
  - intros H. injection H as ->. exists a. split; [now left|exact Ea].
Qed.
Lemma each_err {A} (f : nat -> A -> res A) l x : each f l = Err x -> exists k a, nth_error l k = Some a /\ f k a = Err x.
Proof.
  unfold each. intros H. apply mapM_err in H. destruct H as (k & Hk & H). apply in_seq in Hk. unfold get in H.
  destruct (nth_error l k) as [a|] eqn:Ea; [|apply nth_error_None in Ea; lia]. exists k, a. now split.
Qed.

(** ** Fusions leave enough samples *)

Lemma fusion_some c y t k buf nd r : (0 < p_Ns (o_p (tc_o c)) < p_N (o_p (tc_o c)))%Z -> enough c ->
  (forall sn yk col, nth_error (o_nodes (tc_o c)) k = Some sn -> nth_error y k = Some yk -> In col yk -> (0 <= t / period sn <= Z.of_nat (length col))%Z) ->
  ti_fusion c y t k buf nd = Ok r -> exists z, fst r = Some z /\ tc_Ns c <= length z.
Proof.
  intros HN HE HS. unfold ti_fusion. unfold get at 1. destruct (nth_error (o_nodes (tc_o c)) k) as [sn|] eqn:E1; cbn [bind]; [|discriminate].
  unfold get at 1. destruct (nth_error y k) as [yk|] eqn:E2; cbn [bind]; [|discriminate]. specialize (HS sn yk).
  destruct (mapM (fun col => local_chunk_for_broadcast 0%R col t (period sn) (p_N (o_p (tc_o c)))) yk) as [fr|] eqn:E3; cbn [bind]; [|discriminate].
  assert (HX : existsb (fun col => (Z.of_nat (length col) <? p_N (o_p (tc_o c)))%Z) (chunk_cols fr) = false).
  { apply not_true_is_false. intros HX. apply existsb_exists in HX. destruct HX as (col & Hc & Hs). unfold chunk_cols in Hc. apply in_map_iff in Hc.
    destruct Hc as (fr1 & <- & Hf). destruct (mapM_In _ _ _ _ E3 Hf) as (col & Hcol & Hch). unfold local_chunk_for_broadcast in Hch.
    destruct (chunk_ending_ok _ 0%R col (t / period sn)%Z (p_N (o_p (tc_o c)))) as (ch & Ech & Lch & _); [lia|apply HS; auto|].
    rewrite Hch in Ech. injection Ech as ->. cbn [fst] in Hs. lia. }
  rewrite HX. destruct (get (x_ext (tn_x nd)) (x_i (tn_x nd))) as [w|]; cbn [bind]; [|discriminate].
  destruct (p_whole (o_p (tc_o c))) eqn:EW.
  - destruct (fusion_vector _ _ _ w) as [v|]; cbn [bind]; [|discriminate].
    destruct (compress_whole_chunk _ _ _ _ v _ buf) as [z|] eqn:Ez; cbn [bind]; [|discriminate]. intros H. injection H as <-. exists (snd z). split; [reflexivity|].
    rewrite (whole_length _ _ _ _ _ _ _ _ Ez). unfold tc_N, tc_Ns. lia.
  - destruct HE as [HE|(HE1 & HE2)]; [congruence|].
    match goal with |- bind ?a _ = _ -> _ => destruct a as [wir|] end; cbn [bind]; [|discriminate]. rewrite HE1.
    destruct (compress_few_samples _ wir _ _) as [z|] eqn:Ez; cbn [bind]; [|discriminate]. intros H. injection H as <-. exists z. split; [reflexivity|].
    rewrite (few_length _ _ _ _ _ Ez), HE2. unfold tc_Ns. lia.
Qed.

(** ** The buffers of fused signals change in fusions only *)
Lemma event_keeps_zpb N Ns trees fz s e s' : snd e <> Fu -> ti_event N Ns trees fz s e = Ok s' -> zpb s' = zpb s.
Proof.
  unfold ti_event. destruct e as [k []]; cbn [fst snd]; intros He; try congruence.
  all: try (unfold ti_new_tree; destruct (get trees (formed s)); cbn [bind]; [|discriminate]; intros H; injection H as <-; reflexivity).
  all: try (unfold ti_partial_sum; destruct (get (zp s) k); cbn [bind]; [|discriminate]; destruct (get (zpb s) k); cbn [bind]; [|discriminate];
    destruct (cur s) as [[ups root]|]; [|discriminate]; destruct (get ups k); cbn [bind]; [|discriminate];
    match goal with |- context [foldM ?f ?l ?z] => destruct (foldM f l z) end; cbn [bind]; [|discriminate];
    destruct (Nat.eqb root k); [match goal with |- context [np_sub ?a ?b] => destruct (np_sub a b) end; cbn [bind]; [|discriminate]|]; intros H; injection H as <-; reflexivity).
  all: try (unfold ti_relay; destruct (cur s) as [[ups root]|]; [|discriminate]; destruct (get ups k); cbn [bind]; [|discriminate];
    apply (foldM_keep (relay_one k) (fun a b => zpb b = zpb a)); [reflexivity|congruence|];
    intros s0 l0 s1; unfold relay_one; destruct (get (eta s0) k) as [e0|]; cbn [bind]; [|discriminate]; destruct (get (zp s0) l0); cbn [bind]; [|discriminate];
    destruct e0; [cbn [bind]; intros H; injection H as <-; reflexivity|];
    match goal with |- context [np_sub ?a ?b] => destruct (np_sub a b) end; cbn [bind]; [|discriminate]; intros H; injection H as <-; reflexivity).
  all: intros H; injection H as <-; reflexivity.
Qed.
Lemma events_keep_zpb N Ns trees fz evs : forall s s', (forall e, In e evs -> snd e <> Fu) -> foldM (ti_event N Ns trees fz) evs s = Ok s' -> zpb s' = zpb s.
Proof.
  induction evs as [|e evs IH]; intros s s' He H; cbn [foldM] in H; [congruence|].
  destruct (ti_event N Ns trees fz s e) as [s1|] eqn:E1; [|discriminate]. cbn [bind] in H.
  rewrite (IH s1 s'); [|intros; apply He; now right|exact H]. apply (event_keeps_zpb _ _ _ _ _ _ _ (He e (or_introl eq_refl)) E1).
Qed.
Lemma ups_skip N Ns trees fz evs : forall s, (forall e, In e evs -> snd e = Up) -> foldM (ti_event N Ns trees fz) evs s = Ok s.
Proof.
  induction evs as [|e evs IH]; intros s He; cbn [foldM]; [reflexivity|]. unfold ti_event at 1. rewrite (He e (or_introl eq_refl)). cbn [bind].
  apply IH. intros; apply He; now right.
Qed.

(** ** The view of a state *)
Definition shaped (n : nat) (c : tcfg) (s : tst) : Prop := length (ts_nodes s) = n /\ well_shaped n (tc_N c) (ts_net s).
Lemma nth_error_combine {A B} (a : list A) : forall (b : list B) k x y, nth_error a k = Some x -> nth_error b k = Some y -> nth_error (combine a b) k = Some (x, y).
Proof. induction a as [|u a IH]; intros [|v b] [|k] x y H1 H2; cbn in *; try discriminate; [congruence|]. now apply IH. Qed.
Lemma view_nth n c s k : shaped n c s -> forall nd, nth_error (ts_nodes s) k = Some nd ->
  nth_error (view s) k = Some (mkIN nd (nth k (zpb (ts_net s)) []) (nth k (zp (ts_net s)) [])).
Proof.
  intros (H1 & W1 & W2 & _) nd Hk. unfold view. assert (k < n) by (rewrite <- H1; apply nth_error_Some; congruence).
  rewrite nth_error_map. erewrite nth_error_combine; [| |].
  2:{ apply nth_error_combine; [exact Hk|apply nth_error_nth'; lia]. } 2:{ apply nth_error_nth'. lia. } reflexivity.
Qed.
Lemma view_length n c s : shaped n c s -> length (view s) = n.
Proof. intros (H1 & W1 & W2 & _). unfold view. rewrite map_length, !combine_length. lia. Qed.

Lemma view_eq n c s l : shaped n c s -> length l = n ->
  (forall k nd, k < n -> nth_error (ts_nodes s) k = Some nd -> nth_error l k = Some (mkIN nd (nth k (zpb (ts_net s)) []) (nth k (zp (ts_net s)) []))) -> view s = l.
Proof.
  intros HS HL H. apply nth_error_ext. intros k. destruct (nth_error (ts_nodes s) k) as [nd|] eqn:Ek.
  - assert (k < n) by (destruct HS as (<- & _); apply nth_error_Some; congruence). rewrite (view_nth n c s k HS nd Ek). symmetry. now apply H.
  - apply nth_error_None in Ek. destruct HS as (H1 & H2). rewrite !(proj2 (nth_error_None _ _)); [reflexivity|lia|]. rewrite (view_length n c s); [lia|now split].
Qed.
