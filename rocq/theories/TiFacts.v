(** Complete runs of topology-independent DANSE: the phases of an instant. *)
From Verif Require Import Base BaseFacts Sched SchedSpec Buffers BufFacts ChunkSpec Chunk Wola Dist Online Filt Scm Ext Full
  Tree TreeSpec InNet InNetSpec InNetFacts InNetFacts2 InNetFacts3 InNetFacts4 TiRun TiSpec LatestFacts2.
From Coq Require Import Reals Sorted.
Local Open Scope nat_scope.

(** fused signal and variables of a node whose fusion is next; its update *)
Definition fuse_at (c : tcfg) y t (s : tst) (k : nat) : res (option (list R) * tnode) :=
  do nd <- get (ts_nodes s) k; do buf <- get (zpb (ts_net s)) k; ti_fusion c y t k buf nd.
Definition update_at (c : tcfg) y t (s : tst) (k : nat) (b : bool) : res tnode :=
  do nd <- get (ts_nodes s) k; do em <- get (etamk (ts_net s)) k; ti_update c y t k b em nd.

Lemma get_upd_other {A} k j (x : A) l : k <> j -> get (upd k x l) j = get l j.
Proof. intros H. unfold get. now rewrite upd_nth_other. Qed.

(** ** Phases without fusions and updates *)
Lemma net_phase c y trees t fz (M : list ((nat * evtype) * option bool)) : forall s,
  (forall e, In e M -> (exists b, snd e = Some b) /\ snd (fst e) <> Fu /\ snd (fst e) <> Up) ->
  foldM (ti_full_event c y trees t) M s =
  (do n <- foldM (ti_event (tc_N c) (tc_Ns c) trees fz) (map fst M) (ts_net s); Ok (mkTS n (ts_nodes s))).
Proof.
  induction M as [|[[k ty] m] M IH]; intros s H; [cbn [foldM map bind]; now destruct s|].
  destruct (H _ (or_introl eq_refl)) as ((b & Eb) & H1 & H2). cbn [fst snd] in Eb, H1, H2. subst m.
  assert (IH' := fun s => IH s (fun e He => H e (or_intror He))). clear IH.
  cbn [foldM map fst]. unfold ti_full_event at 1, ti_event at 1. cbn [fst snd].
  destruct ty; try congruence.
  all: match goal with |- bind (bind ?x _) _ = _ => destruct x as [n1|e1] end; cbn [bind]; [|reflexivity]; rewrite IH'; reflexivity.
Qed.

(** ** Fusions *)
Lemma fuse_phase c y trees t fz (M : list ((nat * evtype) * option bool)) : forall s n,
  length (ts_nodes s) = n -> length (zpb (ts_net s)) = n ->
  (forall e, In e M -> (exists b, snd e = Some b) /\ snd (fst e) = Fu /\ fst (fst e) < n) ->
  NoDup (map (fun e => fst (fst e)) M) ->
  (forall e, In e M -> exists r, fuse_at c y t s (fst (fst e)) = Ok r /\ fz (fst (fst e)) = fst r) ->
  exists s', foldM (ti_full_event c y trees t) M s = Ok s' /\
    foldM (ti_event (tc_N c) (tc_Ns c) trees fz) (map fst M) (ts_net s) = Ok (ts_net s') /\
    length (ts_nodes s') = n /\ length (zpb (ts_net s')) = n /\
    forall j, (forall r, In j (map (fun e => fst (fst e)) M) -> fuse_at c y t s j = Ok r ->
                 nth_error (ts_nodes s') j = Some (snd r) /\
                 nth j (zpb (ts_net s')) [] = match fst r with Some z => z | None => nth j (zpb (ts_net s)) [] end) /\
              (~ In j (map (fun e => fst (fst e)) M) -> nth_error (ts_nodes s') j = nth_error (ts_nodes s) j /\ nth j (zpb (ts_net s')) [] = nth j (zpb (ts_net s)) []).
Proof.
  induction M as [|[[k ty] m] M IH]; intros s n L1 L2 HM Hnd HF.
  { exists s. cbn [foldM map]. repeat (split; [first [reflexivity|assumption]|]). intros j. split; [intros r []|]. intros _. split; reflexivity. }
  destruct (HM _ (or_introl eq_refl)) as ((b & Eb) & Ety & Hk). cbn [fst snd] in Eb, Ety, Hk. subst m ty.
  destruct (HF _ (or_introl eq_refl)) as (r & Er & Efz). cbn [fst snd] in Er, Efz.
  cbn [map fst] in Hnd. inversion Hnd as [|? ? Hnot Hnd']; subst.
  assert (Er' := Er). unfold fuse_at in Er'.
  destruct (get (ts_nodes s) k) as [nd|] eqn:E1; [|discriminate]. cbn [bind] in Er'.
  destruct (get (zpb (ts_net s)) k) as [buf|] eqn:E2; [|discriminate]. cbn [bind] in Er'.
  set (net1 := match fst r with None => ts_net s | Some z => mkNet (zp (ts_net s)) (upd k z (zpb (ts_net s))) (zl (ts_net s)) (eta (ts_net s)) (etamk (ts_net s)) (cur (ts_net s)) (formed (ts_net s)) end).
  assert (EN : forall f, f k = fst r -> ti_fuse f k (ts_net s) = Ok net1).
  { intros f Hf. unfold ti_fuse. rewrite E2. cbn [bind]. rewrite Hf. unfold net1. destruct (fst r); reflexivity. }
  assert (Ez : zpb net1 = match fst r with None => zpb (ts_net s) | Some z => upd k z (zpb (ts_net s)) end) by (unfold net1; destruct (fst r); reflexivity).
  set (s1 := mkTS net1 (upd k (snd r) (ts_nodes s))).
  assert (Hother : forall j, j <> k -> fuse_at c y t s1 j = fuse_at c y t s j).
  { intros j Hj. unfold fuse_at, s1. cbn [ts_nodes ts_net]. rewrite get_upd_other by congruence. destruct (get (ts_nodes s) j); [|reflexivity]. cbn [bind].
    rewrite Ez. destruct (fst r); [rewrite get_upd_other by congruence|]; reflexivity. }
  destruct (IH s1 (length (ts_nodes s))) as (s' & A1 & A2 & A3 & A4 & A5).
  { unfold s1. cbn [ts_nodes]. now rewrite upd_length. }
  { unfold s1. cbn [ts_net]. rewrite Ez. destruct (fst r); rewrite ?upd_length; assumption. }
  { intros e He. apply HM. now right. } { exact Hnd'. }
  { intros e He. destruct (HF e (or_intror He)) as (r' & B1 & B2). exists r'. split; [|exact B2]. rewrite Hother; [exact B1|].
    intros E. apply Hnot. apply in_map_iff. exists e. now split. }
  exists s'. split.
  { cbn [foldM]. unfold ti_full_event at 1. cbn [fst snd]. rewrite E1. cbn [bind]. rewrite E2. cbn [bind]. rewrite Er'. cbn [bind].
    rewrite EN by reflexivity. cbn [bind]. exact A1. }
  split.
  { cbn [foldM map fst]. unfold ti_event at 1. cbn [fst snd]. rewrite EN by exact Efz. cbn [bind]. exact A2. }
  split; [exact A3|]. split; [exact A4|]. intros j. destruct (A5 j) as (B1 & B2). split.
  - intros r' [Ej|Hj] Hr'.
    + cbn [fst] in Ej. subst j. assert (r' = r) by congruence. subst r'.
      destruct (B2 Hnot) as (C1 & C2). split; [rewrite C1; unfold s1; cbn [ts_nodes]; rewrite upd_nth_same by lia; reflexivity|].
      rewrite C2. unfold s1. cbn [ts_net]. rewrite Ez. destruct (fst r); [|reflexivity]. rewrite nthL_upd by lia. now rewrite Nat.eqb_refl.
    + assert (j <> k) by (intros ->; exact (Hnot Hj)). rewrite <- Hother in Hr' by assumption. destruct (B1 r' Hj Hr') as (C1 & C2). split; [exact C1|].
      rewrite C2. destruct (fst r'); [reflexivity|]. unfold s1. cbn [ts_net]. rewrite Ez. destruct (fst r); [|reflexivity]. rewrite nthL_upd by lia.
      destruct (Nat.eqb_spec k j); [congruence|reflexivity].
  - cbn [map fst In]. intros Hj. assert (j <> k) by (intros ->; apply Hj; now left). destruct B2 as (C1 & C2); [intros X; apply Hj; now right|].
    split; [rewrite C1; unfold s1; cbn [ts_nodes]; apply upd_nth_other; congruence|].
    rewrite C2. unfold s1. cbn [ts_net]. rewrite Ez. destruct (fst r); [|reflexivity]. rewrite nthL_upd by lia.
    destruct (Nat.eqb_spec k j); [congruence|reflexivity].
Qed.

Lemma fuse_phase_err c y trees t (M : list ((nat * evtype) * option bool)) : forall s,
  (forall e, In e M -> (exists b, snd e = Some b) /\ snd (fst e) = Fu) ->
  NoDup (map (fun e => fst (fst e)) M) ->
  (exists e x, In e M /\ fuse_at c y t s (fst (fst e)) = Err x) ->
  exists x, foldM (ti_full_event c y trees t) M s = Err x.
Proof.
  induction M as [|[[k ty] m] M IH]; intros s HM Hnd (e & x & He & Ex); [destruct He|].
  destruct (HM _ (or_introl eq_refl)) as ((b & Eb) & Ety). cbn [fst snd] in Eb, Ety. subst m ty.
  cbn [map fst] in Hnd. inversion Hnd as [|? ? Hnot Hnd']; subst.
  cbn [foldM]. unfold ti_full_event at 1. cbn [fst snd].
  destruct (get (ts_nodes s) k) as [nd|] eqn:E1; cbn [bind]; [|eauto].
  destruct (get (zpb (ts_net s)) k) as [buf|] eqn:E2; cbn [bind]; [|eauto].
  destruct (ti_fusion c y t k buf nd) as [r|] eqn:E3; cbn [bind]; [|eauto].
  unfold ti_fuse. rewrite E2. cbn [bind].
  destruct He as [He|He].
  { subst e. cbn [fst] in Ex. unfold fuse_at in Ex. rewrite E1 in Ex. cbn [bind] in Ex. rewrite E2 in Ex. cbn [bind] in Ex. congruence. }
  assert (Hj : fst (fst e) <> k). { intros E. apply Hnot. apply in_map_iff. exists e. now split. }
  destruct (fst r) as [z|] eqn:Efr; cbn [bind]; apply IH; try exact Hnd'; try (intros e' He'; apply HM; now right); exists e, x; (split; [exact He|]);
    rewrite <- Ex; unfold fuse_at; cbn [ts_nodes ts_net zpb]; rewrite get_upd_other by congruence; destruct (get (ts_nodes s) (fst (fst e))); cbn [bind]; try reflexivity;
    rewrite ?get_upd_other by congruence; reflexivity.
Qed.

(** ** Updates *)
Lemma up_phase c y trees t (M : list ((nat * evtype) * option bool)) : forall s n,
  length (ts_nodes s) = n ->
  (forall e, In e M -> snd (fst e) = Up /\ fst (fst e) < n) ->
  NoDup (map (fun e => fst (fst e)) M) ->
  (forall e, In e M -> exists b nd, snd e = Some b /\ update_at c y t s (fst (fst e)) b = Ok nd) ->
  exists s', foldM (ti_full_event c y trees t) M s = Ok s' /\ ts_net s' = ts_net s /\ length (ts_nodes s') = n /\
    forall j, (forall b nd, In ((j, Up), Some b) M -> update_at c y t s j b = Ok nd -> nth_error (ts_nodes s') j = Some nd) /\
              (~ In j (map (fun e => fst (fst e)) M) -> nth_error (ts_nodes s') j = nth_error (ts_nodes s) j).
Proof.
  induction M as [|[[k ty] m] M IH]; intros s n L1 HM Hnd HF.
  { exists s. cbn [foldM map]. repeat (split; [first [reflexivity|assumption]|]). intros j. split; [intros b nd []|reflexivity]. }
  destruct (HM _ (or_introl eq_refl)) as (Ety & Hk). cbn [fst snd] in Ety, Hk. subst ty.
  destruct (HF _ (or_introl eq_refl)) as (b & nd' & Eb & Er). cbn [fst snd] in Eb, Er. subst m.
  cbn [map fst] in Hnd. inversion Hnd as [|? ? Hnot Hnd']; subst.
  assert (Er' := Er). unfold update_at in Er'.
  destruct (get (ts_nodes s) k) as [nd|] eqn:E1; [|discriminate]. cbn [bind] in Er'.
  destruct (get (etamk (ts_net s)) k) as [em|] eqn:E2; [|discriminate]. cbn [bind] in Er'.
  set (s1 := mkTS (ts_net s) (upd k nd' (ts_nodes s))).
  assert (Hother : forall j b, j <> k -> update_at c y t s1 j b = update_at c y t s j b).
  { intros j b' Hj. unfold update_at, s1. cbn [ts_nodes ts_net]. now rewrite get_upd_other by congruence. }
  destruct (IH s1 (length (ts_nodes s))) as (s' & A1 & A2 & A3 & A5).
  { unfold s1. cbn [ts_nodes]. now rewrite upd_length. }
  { intros e He. apply HM. now right. } { exact Hnd'. }
  { intros e He. destruct (HF e (or_intror He)) as (b' & r' & B1 & B2). exists b', r'. split; [exact B1|]. rewrite Hother; [exact B2|].
    intros E. apply Hnot. apply in_map_iff. exists e. now split. }
  exists s'. split.
  { cbn [foldM]. unfold ti_full_event at 1. cbn [fst snd]. rewrite E1. cbn [bind]. rewrite E2. cbn [bind]. rewrite Er'. cbn [bind]. exact A1. }
  split; [exact A2|]. split; [exact A3|]. intros j. destruct (A5 j) as (B1 & B2). split.
  - intros b' nd2 [Ej|Hj] Hr'.
    + injection Ej as <- <-. assert (nd2 = nd') by congruence. subst nd2. rewrite (B2 Hnot). unfold s1. cbn [ts_nodes]. now rewrite upd_nth_same by lia.
    + assert (j <> k). { intros ->. apply Hnot. apply in_map_iff. exists ((k, Up), Some b'). now split. } rewrite <- Hother in Hr' by assumption. exact (B1 _ _ Hj Hr').
  - cbn [map fst In]. intros Hj. assert (j <> k) by (intros ->; apply Hj; now left). rewrite B2; [|intros X; apply Hj; now right].
    unfold s1. cbn [ts_nodes]. apply upd_nth_other. congruence.
Qed.

Lemma up_phase_err c y trees t (M : list ((nat * evtype) * option bool)) : forall s,
  (forall e, In e M -> snd (fst e) = Up) ->
  NoDup (map (fun e => fst (fst e)) M) ->
  (exists k b x, In ((k, Up), Some b) M /\ update_at c y t s k b = Err x) ->
  exists x, foldM (ti_full_event c y trees t) M s = Err x.
Proof.
  induction M as [|[[k ty] m] M IH]; intros s HM Hnd (j & b & x & He & Ex); [destruct He|].
  pose proof (HM _ (or_introl eq_refl)) as Ety. cbn [fst snd] in Ety. subst ty.
  cbn [map fst] in Hnd. inversion Hnd as [|? ? Hnot Hnd']; subst.
  cbn [foldM]. unfold ti_full_event at 1. cbn [fst snd]. destruct m as [b0|]; cbn [bind]; [|eauto].
  destruct (get (ts_nodes s) k) as [nd|] eqn:E1; cbn [bind]; [|eauto].
  destruct (get (etamk (ts_net s)) k) as [em|] eqn:E2; cbn [bind]; [|eauto].
  destruct (ti_update c y t k b0 em nd) as [r|] eqn:E3; cbn [bind]; [|eauto].
  destruct He as [He|He].
  { injection He as <- <-. unfold update_at in Ex. rewrite E1 in Ex. cbn [bind] in Ex. rewrite E2 in Ex. cbn [bind] in Ex. congruence. }
  assert (Hj : j <> k). { intros ->. apply Hnot. apply in_map_iff. exists ((k, Up), Some b). now split. }
  apply IH; [intros e' He'; apply HM; now right|exact Hnd'|]. exists j, b, x. split; [exact He|]. rewrite <- Ex. unfold update_at. cbn [ts_nodes ts_net].
  now rewrite get_upd_other by congruence.
Qed.

(** ** Events with their marks *)
Lemma combine_app_short {A B} (l : list A) : forall (a b : list B), length a = length l -> combine l (a ++ b) = combine l a.
Proof. induction l as [|x l IH]; intros [|u a] b H; cbn in *; try lia; [reflexivity|]. f_equal. apply IH. lia. Qed.
Lemma map_fst_combine {A B} (l : list A) : forall (a : list B), length a = length l -> map fst (combine l a) = l.
Proof. induction l as [|x l IH]; intros [|u a] H; cbn in *; try lia; [reflexivity|]. f_equal. apply IH. lia. Qed.
Lemma combine_map_r {A B C} (f : B -> C) (l : list A) : forall a, combine l (map f a) = map (fun p => (fst p, f (snd p))) (combine l a).
Proof. induction l as [|x l IH]; intros [|u a]; cbn; try reflexivity. f_equal. apply IH. Qed.

Lemma marks_ok i : length (in_byp i) = length (in_evs i) ->
  map fst (marks i) = in_evs i /\ (forall e, In e (marks i) -> exists b, snd e = Some b /\ In (fst e, b) (combine (in_evs i) (in_byp i))) /\
  (forall e b, In (e, b) (combine (in_evs i) (in_byp i)) -> In (e, Some b) (marks i)).
Proof.
  intros H. unfold marks. rewrite combine_app_short by (now rewrite map_length). rewrite combine_map_r. split; [|split].
  - rewrite map_map. cbn [fst]. now apply map_fst_combine.
  - intros e He. apply in_map_iff in He. destruct He as ((a & b) & <- & Hp). exists b. split; [reflexivity|exact Hp].
  - intros e b He. apply in_map_iff. exists (e, b). split; [reflexivity|exact He].
Qed.

Lemma NoDup_fst_unique {A B} (l : list (A * B)) a b b' : NoDup (map fst l) -> In (a, b) l -> In (a, b') l -> b = b'.
Proof.
  induction l as [|[x u] l IH]; intros Hnd H1 H2; [destruct H1|]. cbn [map fst] in Hnd. inversion Hnd as [|? ? Hn Hnd']; subst.
  destruct H1 as [H1|H1], H2 as [H2|H2].
  - congruence.
  - injection H1 as -> ->. exfalso. apply Hn. apply in_map_iff. exists (a, b'). now split.
  - injection H2 as -> ->. exfalso. apply Hn. apply in_map_iff. exists (a, b). now split.
  - exact (IH Hnd' H1 H2).
Qed.

Lemma updates_of_iff i k b : length (in_byp i) = length (in_evs i) -> NoDup (in_evs i) ->
  updates_of i k = Some b <-> In ((k, Up), Some b) (marks i).
Proof.
  intros HL Hnd. destruct (marks_ok i HL) as (E & M1 & M2). unfold updates_of.
  assert (Hup : forall e, is_up_of k e = true <-> e = (k, Up)).
  { intros [q ty]. unfold is_up_of. cbn [fst snd]. rewrite andb_true_iff, Nat.eqb_eq. destruct ty; split; intros; try (now destruct H); try congruence.
    - destruct H as (-> & _). reflexivity.
    - injection H as ->. now split. }
  split.
  - destruct (find _ _) as [[e b']|] eqn:EF; cbn [option_map]; [|discriminate]. intros Hb. injection Hb as <-. apply find_some in EF. cbn [fst snd] in *.
    destruct EF as (Hin & Hu). apply Hup in Hu. subst e. now apply M2.
  - intros Hin. destruct (M1 _ Hin) as (b0 & Eb & Hc). cbn [fst snd] in Eb, Hc. injection Eb as <-.
    destruct (find (fun em => is_up_of k (fst em)) (combine (in_evs i) (in_byp i))) as [[e b']|] eqn:EF; cbn [option_map].
    + apply find_some in EF. cbn [fst snd] in *. destruct EF as (Hin' & Hu). apply Hup in Hu. subst e.
      f_equal. apply (NoDup_fst_unique (combine (in_evs i) (in_byp i)) (k, Up)); [rewrite map_fst_combine by exact HL; exact Hnd|exact Hin'|exact Hc].
    + exfalso. assert (H := find_none _ _ EF _ Hc). cbn [fst] in H. assert (is_up_of k (k, Up) = true) by (now apply Hup). congruence.
Qed.
