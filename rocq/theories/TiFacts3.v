(** Complete runs of topology-independent DANSE: an exchange over a tree does what the ideal
    exchange does. *)
From Verif Require Import Base BaseFacts Sched SchedSpec Buffers BufFacts ChunkSpec Chunk ChunkFacts Wola Dist Online Filt Scm Ext Full
  Tree TreeSpec InNet InNetSpec InNetFacts InNetFacts2 InNetFacts3 InNetFacts4 TiRun TiSpec TiFacts TiFacts2 LatestFacts2.
From Coq Require Import Reals Sorted.
Local Open Scope nat_scope.

Definition refines (n : nat) (c : tcfg) (ideal : res (list inode)) (real : res tst) (P : tst -> Prop) : Prop :=
  match ideal with
  | Ok l => exists s, real = Ok s /\ shaped n c s /\ view s = l /\ P s
  | Err _ => exists e, real = Err e
  end.

Lemma NoDup_map_filter ty evs M : NoDup evs -> map fst M = filter (is_ty ty) evs -> NoDup (map (fun e : (nat * evtype) * option bool => fst (fst e)) M).
Proof. intros H E. rewrite <- map_map with (f := fst) (g := fst). rewrite E. now apply map_fst_filter_NoDup. Qed.

Lemma instant_refines n c y trees nbrs r st o i s :
  (0 < p_Ns (o_p (tc_o c)) < p_N (o_p (tc_o c)))%Z -> enough c ->
  (forall k sn yk col, nth_error (o_nodes (tc_o c)) k = Some sn -> nth_error y k = Some yk -> In col yk -> (0 <= in_t i / period sn <= Z.of_nat (length col))%Z) ->
  is_tree n nbrs -> r < n -> orientate nbrs r = Ok (st, o) ->
  length (in_byp i) = length (in_evs i) ->
  StronglySorted (ti_before o) (in_evs i) -> NoDup (in_evs i) ->
  (forall k, k < n -> In (k, Fu) (in_evs i) /\ In (k, Bc) (in_evs i) /\ In (k, Re) (in_evs i)) ->
  (forall e, In e (in_evs i) -> fst e < n) ->
  shaped n c s -> in_use trees (ts_net s) (in_evs i) (o_up st, r) ->
  refines n c (ideal_instant c y (in_t i) (updates_of i) (view s)) (ti_full_instant c y trees s i)
    (fun s' => cur (ts_net s') = Some (o_up st, r) /\ formed (ts_net s') = formed (ts_net s) + trees_formed (in_evs i)).
Proof.
  intros HN HE HS HT Hr Ho HL Hsort Hnd Hall Hlt HSh HU.
  set (t := in_t i). set (evs := in_evs i) in *.
  destruct (marks_ok i HL) as (EM & M1 & M2). fold evs in EM.
  assert (Hsp := split_by_type o evs Hsort).
  assert (EM' : map fst (marks i) = filter (is_ty Tr) evs ++ filter (is_ty Fu) evs ++ filter (is_ty Bc) evs ++ filter (is_ty Re) evs ++ filter (is_ty Up) evs) by (rewrite EM; exact Hsp).
  apply map_eq_app in EM'. destruct EM' as (MT & X1 & EX0 & ET & EM').
  apply map_eq_app in EM'. destruct EM' as (MF & X2 & EX1 & EF & EM').
  apply map_eq_app in EM'. destruct EM' as (MB & X3 & EX2 & EB & EM').
  apply map_eq_app in EM'. destruct EM' as (MR & MU & EX3 & ER & EUp). subst X3 X2 X1.
  assert (Hin : forall e ty M, map fst M = filter (is_ty ty) evs -> (forall e, In e M -> In e (marks i)) -> In e M -> (exists b, snd e = Some b) /\ snd (fst e) = ty /\ fst (fst e) < n).
  { intros e ty M EMM HMM He. assert (Hf : In (fst e) (filter (is_ty ty) evs)) by (rewrite <- EMM; now apply in_map). apply filter_In in Hf.
    destruct Hf as (Hf1 & Hf2). apply is_ty_iff in Hf2. destruct (M1 e (HMM e He)) as (b & Eb & _). repeat split; eauto. }
  assert (IT : forall e, In e MT -> In e (marks i)) by (intros e He; rewrite EX0, !in_app_iff; tauto).
  assert (IF : forall e, In e MF -> In e (marks i)) by (intros e He; rewrite EX0, !in_app_iff; tauto).
  assert (IB : forall e, In e MB -> In e (marks i)) by (intros e He; rewrite EX0, !in_app_iff; tauto).
  assert (IR : forall e, In e MR -> In e (marks i)) by (intros e He; rewrite EX0, !in_app_iff; tauto).
  assert (IU : forall e, In e MU -> In e (marks i)) by (intros e He; rewrite EX0, !in_app_iff; tauto).
  assert (HSh' := HSh). destruct HSh' as (Ln & Lw). assert (Lz : length (zpb (ts_net s)) = n) by apply Lw.
  assert (Hnode : forall k, k < n -> exists nd, nth_error (ts_nodes s) k = Some nd).
  { intros k Hk. destruct (nth_error (ts_nodes s) k) as [nd|] eqn:E; [eauto|]. apply nth_error_None in E. lia. }
  assert (Hfuse : forall k nd, k < n -> nth_error (ts_nodes s) k = Some nd -> fuse_at c y t s k = ti_fusion c y t k (nth k (zpb (ts_net s)) []) nd).
  { intros k nd Hk Ek. unfold fuse_at. unfold get at 1. rewrite Ek. cbn [bind]. rewrite getL by lia. reflexivity. }
  assert (HFu : forall k, k < n -> In k (map (fun e : nat * evtype * option bool => fst (fst e)) MF)).
  { intros k Hk. destruct (Hall k Hk) as (Hfu & _ & _). assert (Hfu' : In (k, Fu) (map fst MF)) by (rewrite EF; apply filter_In; split; [exact Hfu|reflexivity]).
    apply in_map_iff in Hfu'. destruct Hfu' as (e & Ee & He). apply in_map_iff. exists e. rewrite Ee. now split. }
  (* tree formation *)
  assert (HTree : forall nT, foldM (ti_event (tc_N c) (tc_Ns c) trees (fun _ => None)) (map fst MT) (ts_net s) = Ok nT ->
    (forall k, fuse_at c y t (mkTS nT (ts_nodes s)) k = fuse_at c y t s k) /\ zpb nT = zpb (ts_net s)).
  { intros nT ENT. assert (ZT : zpb nT = zpb (ts_net s)).
    { refine (events_keep_zpb _ _ _ _ _ _ _ _ ENT). intros e He. rewrite ET in He. apply filter_In in He. destruct He as (_ & He). apply is_ty_iff in He. congruence. }
    split; [|exact ZT]. intros k. unfold fuse_at. cbn [ts_nodes ts_net]. now rewrite ZT. }
  (* failing fusions *)
  assert (Herr : forall x, each (ideal_fuse c y t) (view s) = Err x -> exists e, foldM (ti_full_event c y trees t) (MT ++ MF) s = Err e).
  { intros x E1. rewrite foldM_app.
    rewrite (net_phase c y trees t (fun _ => None)) by (intros e He; destruct (Hin e Tr MT ET IT He) as (A & B & _); rewrite B; repeat split; [exact A|discriminate|discriminate]).
    destruct (foldM (ti_event (tc_N c) (tc_Ns c) trees (fun _ => None)) (map fst MT) (ts_net s)) as [nT|] eqn:ENT; cbn [bind]; [|eauto].
    destruct (HTree nT eq_refl) as (Hf1 & _).
    destruct (each_err _ _ _ E1) as (k & a & Ha & Hx).
    assert (Hk : k < n) by (rewrite <- (view_length n c s HSh); apply nth_error_Some; congruence).
    destruct (Hnode k Hk) as (nd & End). rewrite (view_nth n c s k HSh nd End) in Ha. injection Ha as <-. unfold ideal_fuse in Hx. cbn [id_buf id_node] in Hx.
    apply (fuse_phase_err c y trees t MF).
    { intros e He. destruct (Hin e Fu MF EF IF He) as (A & B & _). now split. }
    { apply (NoDup_map_filter Fu evs); assumption. }
    { specialize (HFu k Hk). apply in_map_iff in HFu. destruct HFu as (e & Ee & He). exists e. rewrite Ee, Hf1, (Hfuse k nd Hk End).
      destruct (ti_fusion c y t k (nth k (zpb (ts_net s)) []) nd); cbn [bind] in Hx; [discriminate|]. eauto. } }
  (* successful fusions *)
  assert (Hmid : forall l1, each (ideal_fuse c y t) (view s) = Ok l1 -> exists s3, foldM (ti_full_event c y trees t) (MT ++ MF ++ MB ++ MR) s = Ok s3 /\
    shaped n c s3 /\ view s3 = l1 /\ cur (ts_net s3) = Some (o_up st, r) /\ formed (ts_net s3) = formed (ts_net s) + trees_formed evs /\
    forall k, k < n -> get (etamk (ts_net s3)) k = Ok (sum_of_others (tc_N c) l1 k)).
  { intros l1 E1. destruct (each_ok _ _ _ E1) as (Ll1 & Hl1). rewrite (view_length n c s HSh) in Ll1.
    set (fz := fun k => match fuse_at c y t s k with Ok r => fst r | Err _ => None end).
    assert (HFok : forall k nd, k < n -> nth_error (ts_nodes s) k = Some nd -> exists r z, fuse_at c y t s k = Ok r /\ fst r = Some z /\ tc_Ns c <= length z /\
      nth_error l1 k = Some (mkIN (snd r) z (shifted_frame (tc_N c) (tc_Ns c) (nth k (zp (ts_net s)) []) z))).
    { intros q nd Hq End. destruct (Hl1 q _ (view_nth n c s q HSh nd End)) as (b & B1 & B2). unfold ideal_fuse in B1. cbn [id_buf id_node id_frame] in B1.
      rewrite <- (Hfuse q nd Hq End) in B1. destruct (fuse_at c y t s q) as [r0|] eqn:Er; cbn [bind] in B1; [|discriminate]. rewrite (Hfuse q nd Hq End) in Er.
      destruct (fusion_some c y t q _ _ r0 HN HE (HS q) Er) as (z & Z1 & Z2). rewrite Z1 in B1. injection B1 as <-. exists r0, z. auto. }
    set (new := fun q => match fz q with Some z => z | None => [] end).
    destruct (in_network_sum n (tc_N c) (tc_Ns c) nbrs r st o trees fz new evs (ts_net s) HT Hr Ho) as (n' & En' & W' & C' & K'); try assumption.
    { unfold tc_N, tc_Ns. lia. }
    { intros q Hq. destruct (Hnode q Hq) as (nd & End). destruct (HFok q nd Hq End) as (r0 & z & F1 & F2 & F3 & _). unfold new, fz. rewrite F1, F2. now split. }
    assert (Efm := instant_formed _ _ _ _ _ _ _ En').
    unfold ti_instant in En'. rewrite Hsp in En'. rewrite foldM_app in En'. rewrite <- ET in En'.
    assert (Etr : foldM (ti_event (tc_N c) (tc_Ns c) trees fz) (map fst MT) (ts_net s) = foldM (ti_event (tc_N c) (tc_Ns c) trees (fun _ => None)) (map fst MT) (ts_net s)).
    { assert (HTr : forall e, In e (map fst MT) -> snd e = Tr) by (intros e He; rewrite ET in He; apply filter_In in He; now apply is_ty_iff).
      clear - HTr. generalize (ts_net s). induction (map fst MT) as [|e l IH]; intros n0; [reflexivity|]. cbn [foldM]. unfold ti_event at 1 3. rewrite (HTr e (or_introl eq_refl)).
      destruct (ti_new_tree trees n0); cbn [bind]; [|reflexivity]. apply IH. intros; apply HTr; now right. }
    rewrite Etr in En'.
    rewrite foldM_app.
    rewrite (net_phase c y trees t (fun _ => None)) by (intros e He; destruct (Hin e Tr MT ET IT He) as (A & B & _); rewrite B; repeat split; [exact A|discriminate|discriminate]).
    destruct (foldM (ti_event (tc_N c) (tc_Ns c) trees (fun _ => None)) (map fst MT) (ts_net s)) as [nT|] eqn:ENT; cbn [bind] in En' |- *; [|discriminate].
    destruct (HTree nT eq_refl) as (Hf1 & ZT).
    destruct (fuse_phase c y trees t fz MF (mkTS nT (ts_nodes s)) n) as (s2 & A1 & A2 & A3 & A4 & A5).
    { exact Ln. } { cbn [ts_net]. now rewrite ZT. }
    { intros e He. apply (Hin e Fu MF EF IF He). } { apply (NoDup_map_filter Fu evs); assumption. }
    { intros e He. destruct (Hin e Fu MF EF IF He) as (_ & _ & Hk'). destruct (Hnode _ Hk') as (nd & End). destruct (HFok _ nd Hk' End) as (r0 & z & F1 & F2 & _).
      exists r0. rewrite Hf1. split; [exact F1|]. unfold fz. now rewrite F1. }
    rewrite foldM_app, A1. cbn [bind].
    rewrite (net_phase c y trees t fz (MB ++ MR)).
    2:{ intros e He. apply in_app_iff in He. destruct He as [He|He]; [destruct (Hin e Bc MB EB IB He) as (A & B & _)|destruct (Hin e Re MR ER IR He) as (A & B & _)]; rewrite B; repeat split; try exact A; discriminate. }
    rewrite foldM_app, <- EF in En'. cbn [ts_net] in A2. rewrite A2 in En'. cbn [bind] in En'.
    rewrite app_assoc, foldM_app, <- EB, <- ER, <- map_app in En'.
    destruct (foldM (ti_event (tc_N c) (tc_Ns c) trees fz) (map fst (MB ++ MR)) (ts_net s2)) as [n3|] eqn:E3; cbn [bind] in En' |- *; [|discriminate].
    rewrite ups_skip in En' by (intros e He; apply filter_In in He; now apply is_ty_iff). injection En' as ->.
    assert (Z3 : zpb n' = zpb (ts_net s2)).
    { refine (events_keep_zpb _ _ _ _ _ _ _ _ E3). intros e He. rewrite map_app, EB, ER, in_app_iff in He. destruct He as [He|He]; apply filter_In in He; destruct He as (_ & He); apply is_ty_iff in He; congruence. }
    exists (mkTS n' (ts_nodes s2)). split; [reflexivity|].
    assert (Sh3 : shaped n c (mkTS n' (ts_nodes s2))) by (split; [exact A3|exact W']). split; [exact Sh3|]. split; [|split; [exact C'|split; [exact Efm|]]].
    - apply (view_eq n c); [exact Sh3|exact Ll1|]. cbn [ts_nodes ts_net]. intros k nd2 Hk End2. destruct (Hnode k Hk) as (nd & End).
      destruct (HFok k nd Hk End) as (r0 & z & F1 & F2 & F3 & F4). rewrite F4. destruct (A5 k) as (A51 & _). destruct (A51 r0 (HFu k Hk)) as (N1 & N2); [now rewrite Hf1|].
      rewrite End2 in N1. injection N1 as ->. rewrite F2 in N2. rewrite Z3, N2. destruct (K' k Hk) as (KZ & _). cbn zeta in KZ. rewrite KZ. unfold new, fz. now rewrite F1, F2.
    - intros k Hk. cbn [ts_net]. rewrite getL by (destruct W' as (_ & _ & _ & _ & W5 & _); lia). f_equal. destruct (K' k Hk) as (_ & _ & KL & KS). cbn zeta in KS.
      apply nth_ext with (d := 0%R) (d' := 0%R); [rewrite KL; unfold sum_of_others; now rewrite map_length, seq_length|]. intros j Hj. rewrite KL in Hj.
      destruct (KS j Hj) as (_ & ->). unfold sum_of_others. rewrite WolaFacts.nth_map_seq by exact Hj. rewrite Ll1. apply sumR_ext'. intros q Hq.
      destruct (Nat.eqb q k); [reflexivity|]. destruct (Hnode q Hq) as (ndq & Eq). destruct (HFok q ndq Hq Eq) as (rq & zq & G1 & G2 & G3 & G4).
      unfold frame_of. rewrite G4. cbn [id_frame]. unfold new, fz. now rewrite G1, G2. }
  assert (HMU : forall k b, updates_of i k = Some b <-> In ((k, Up), Some b) MU).
  { intros k b. rewrite (updates_of_iff i k b HL Hnd). split; [|apply IU]. intros Eu.
    assert (Hi : forall M ty, map fst M = filter (is_ty ty) evs -> ty <> Up -> ~ In ((k, Up), Some b) M).
    { intros M ty E Hty HM. assert (HM' : In (k, Up) (map fst M)) by (apply in_map_iff; exists ((k, Up), Some b); now split). rewrite E in HM'.
      apply filter_In in HM'. destruct HM' as (_ & HM'). apply is_ty_iff in HM'. cbn in HM'. congruence. }
    rewrite EX0, !in_app_iff in Eu. destruct Eu as [Eu|[Eu|[Eu|[Eu|Eu]]]]; [| | | |exact Eu]; exfalso; eapply Hi; try exact Eu; try eassumption; discriminate. }
  unfold refines, ti_full_instant, ideal_instant. fold t. rewrite EX0.
  destruct (each (ideal_fuse c y t) (view s)) as [l1|x1] eqn:E1; cbn [bind].
  2:{ destruct (Herr x1 eq_refl) as (e & Ee). exists e. rewrite app_assoc, foldM_app, Ee. reflexivity. }
  destruct (Hmid l1 eq_refl) as (s3 & B1 & B2 & B3 & B4 & B5 & B6).
  replace (MT ++ MF ++ MB ++ MR ++ MU) with ((MT ++ MF ++ MB ++ MR) ++ MU) by (rewrite <- !app_assoc; reflexivity).
  rewrite foldM_app, B1. cbn [bind]. clear B1 Herr Hmid.
  assert (Hnd3 : forall k, k < n -> exists nd, nth_error (ts_nodes s3) k = Some nd).
  { intros k Hk. destruct (nth_error (ts_nodes s3) k) as [nd|] eqn:E; [eauto|]. apply nth_error_None in E. destruct B2 as (B2 & _). lia. }
  assert (Hupd : forall k nd b, k < n -> nth_error (ts_nodes s3) k = Some nd -> update_at c y t s3 k b = ti_update c y t k b (sum_of_others (tc_N c) l1 k) nd).
  { intros k nd b Hk Ek. unfold update_at. unfold get at 1. rewrite Ek. cbn [bind]. rewrite (B6 k Hk). reflexivity. }
  assert (Ll1 : length l1 = n) by (rewrite <- B3; apply (view_length n c); exact B2).
  destruct (each (ideal_update c y t (updates_of i) l1) l1) as [l2|x2] eqn:E2.
  - destruct (each_ok _ _ _ E2) as (Ll2 & Hl2).
    assert (Hl1 : forall k nd, nth_error (ts_nodes s3) k = Some nd -> nth_error l1 k = Some (mkIN nd (nth k (zpb (ts_net s3)) []) (nth k (zp (ts_net s3)) []))).
    { intros k nd Ek. rewrite <- B3. now apply (view_nth n c). }
    destruct (up_phase c y trees t MU s3 n) as (s4 & D1 & D2 & D3 & D4).
    { apply B2. } { intros e He. apply (Hin e Up MU EUp IU He). } { apply (NoDup_map_filter Up evs); assumption. }
    { intros e He. destruct (Hin e Up MU EUp IU He) as ((b & Eb) & Et & Hk). destruct (Hnd3 _ Hk) as (nd & End). exists b.
      destruct (Hl2 _ _ (Hl1 _ _ End)) as (b2 & G1 & G2). unfold ideal_update in G1.
      assert (Eu : updates_of i (fst (fst e)) = Some b). { apply HMU. destruct e as [[k ty] m]. cbn [fst snd] in *. subst. exact He. }
      rewrite Eu in G1. cbn [id_node] in G1. rewrite <- (Hupd _ nd b Hk End) in G1. destruct (update_at c y t s3 (fst (fst e)) b) as [nd'|]; [|discriminate]. eauto. }
    exists s4. split; [exact D1|]. assert (Sh4 : shaped n c s4) by (split; [exact D3|rewrite D2; apply B2]). split; [exact Sh4|]. split; [|rewrite D2; now split].
    apply (view_eq n c); [exact Sh4|lia|]. intros k nd4 Hk End4. rewrite D2. destruct (Hnd3 _ Hk) as (nd & End).
    destruct (Hl2 _ _ (Hl1 _ _ End)) as (b2 & G1 & G2). rewrite G2. f_equal. unfold ideal_update in G1. destruct (D4 k) as (D41 & D42).
    destruct (updates_of i k) as [b|] eqn:Eu.
    + cbn [id_node id_buf id_frame] in G1. rewrite <- (Hupd k nd b Hk End) in G1. destruct (update_at c y t s3 k b) as [nd'|] eqn:EU; cbn [bind] in G1; [|discriminate].
      injection G1 as <-. apply HMU in Eu. rewrite (D41 b nd' Eu EU) in End4. injection End4 as <-. reflexivity.
    + injection G1 as <-. rewrite D42 in End4; [congruence|]. intros X. apply in_map_iff in X. destruct X as (e & Ee & He).
      destruct (Hin e Up MU EUp IU He) as ((b & Eb) & Et & _). assert (updates_of i k = Some b); [|congruence]. apply HMU. destruct e as [[k' ty] m]. cbn [fst snd] in *. subst. exact He.
  - destruct (each_err _ _ _ E2) as (k & a & Ha & Hx). assert (Hk : k < n) by (rewrite <- Ll1; apply nth_error_Some; congruence).
    destruct (Hnd3 _ Hk) as (nd & End). rewrite <- B3 in Ha. rewrite (view_nth n c s3 k B2 nd End) in Ha. injection Ha as <-. unfold ideal_update in Hx.
    destruct (updates_of i k) as [b|] eqn:Eu; [|discriminate]. cbn [id_node] in Hx. apply HMU in Eu.
    apply (up_phase_err c y trees t MU). { intros e He. apply (Hin e Up MU EUp IU He). } { apply (NoDup_map_filter Up evs); assumption. }
    exists k, b. rewrite (Hupd k nd b Hk End). destruct (ti_update c y t k b (sum_of_others (tc_N c) l1 k) nd); cbn [bind] in Hx; [discriminate|]. eauto.
Qed.
