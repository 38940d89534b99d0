(** Facts about the centralised estimates of sampling-rate offsets (C91). *)
From Verif Require Import Base BaseFacts Buffers BufFacts Centr Level Cx CxFacts ChunkSpec SroComp SroSpec SroFacts CohDrift CohSpec CohFacts CohFacts2 CohFacts3 CohFacts4 CohCentr CohCentrSpec.
From Coq Require Import Reals Lra.
Local Open Scope R_scope.

Lemma nth_map_seq0 {A} (f : nat -> A) n j d : (j < n)%nat -> nth j (map f (seq 0 n)) d = f j.
Proof. intros H. rewrite (nth_indep _ d (f 0%nat)) by (rewrite map_length, seq_length; exact H). rewrite map_nth, seq_nth by exact H. reflexivity. Qed.
Lemma mapM_fun {A B} (f : A -> res B) (g : A -> B) l : (forall x, In x l -> f x = Ok (g x)) -> mapM f l = Ok (map g l).
Proof. induction l as [|a l IH]; intros H; [reflexivity|]. cbn [mapM map]. rewrite (H a (or_introl eq_refl)). cbn [bind]. rewrite IH by (intros x Hx; apply H; now right). reflexivity. Qed.

Section Node.
  Variables (c : cdpar) (L : Z) (Ns : R) (K : nat) (nsens : list nat) (k : nat).
  Notation n := (length nsens).
  Notation N := (2 * (K - 1))%nat.
  Hypothesis Hk : (k < n)%nat.
  Hypothesis Hpos : Forall (fun m => (0 < m)%nat) nsens.

  Lemma other_lt j : (j < n - 1)%nat -> (other k j < n)%nat /\ other k j <> k.
  Proof. unfold other. destruct (Nat.ltb_spec j k); lia. Qed.
  Lemma other_inv q : (q < n)%nat -> q <> k -> exists j, (j < n - 1)%nat /\ q = other k j.
  Proof. intros H1 H2. exists (if (q <? k)%nat then q else q - 1)%nat. unfold other. destruct (Nat.ltb_spec q k); [destruct (Nat.ltb_spec q k)|destruct (Nat.ltb_spec (q - 1) k)]; lia. Qed.
  Lemma first_lt q : (q < n)%nat -> (first_sensor nsens q < list_sum nsens)%nat.
  Proof.
    intros H. pose proof (first_sensor_S nsens q H) as E. pose proof (first_sensor_mono nsens (S q) n ltac:(lia)) as E2. rewrite first_sensor_all in E2.
    assert (0 < nth q nsens 0)%nat by (rewrite Forall_forall in Hpos; apply Hpos, nth_In, H). lia.
  Qed.

  Lemma seen_row_0 row : nth 0 (seen_row nsens k row) czero = nth (first_sensor nsens k) row czero.
  Proof. reflexivity. Qed.
  Lemma seen_row_S row j : (j < n - 1)%nat -> nth (1 + j) (seen_row nsens k row) czero = nth (first_sensor nsens (other k j)) row czero.
  Proof. intros H. unfold seen_row. cbn [nth Nat.add]. apply (nth_map_seq0 (fun j => nth (first_sensor nsens (other k j)) row czero)). exact H. Qed.
  Lemma seen_row_len row : length (seen_row nsens k row) = (1 + (n - 1))%nat.
  Proof. unfold seen_row. cbn [length]. now rewrite map_length, seq_length. Qed.
  Lemma seen_wf l : Forall (wf_centr_frame K nsens) l -> Forall (wf_frame K 1 (n - 1)) (map (seen nsens k) l).
  Proof.
    intros H. rewrite Forall_map. eapply Forall_impl; [|exact H]. intros x (H1 & H2 & H3). repeat split; cbn [fst snd seen].
    - now rewrite map_length, seq_length.
    - now rewrite map_length.
    - rewrite Forall_map. apply Forall_forall. intros r _. apply seen_row_len.
  Qed.
  Lemma seen_coherences j y : (j < n - 1)%nat -> coherences (1 + j) (map (seen_row nsens k) y) = cc_coherences (first_sensor nsens k) (first_sensor nsens (other k j)) y.
  Proof. intros H. unfold coherences, cc_coherences. rewrite map_map. apply map_ext. intros row. rewrite seen_row_0, seen_row_S by exact H. reflexivity. Qed.
  Lemma seen_flags j l m : (j < n - 1)%nat -> cumulated L (map fst (map (seen nsens k) l)) m j = cumulated L (map fst l) m (other k j).
  Proof.
    intros H. unfold cumulated. f_equal. f_equal. rewrite !map_map, !firstn_map, !map_map. apply map_ext. intros x. cbn [fst seen].
    apply (nth_map_seq0 (fun j => nth (other k j) (fst x) 0%Z)). exact H.
  Qed.
  Lemma seen_flag_at l j t : (j < n - 1)%nat -> (t < length l)%nat -> flag_at (map (seen nsens k) l) j t = flag_at l (other k j) t.
  Proof.
    intros H Ht. unfold flag_at. rewrite (nth_indep _ ([], []) (seen nsens k ([], []))) by (rewrite map_length; exact Ht). rewrite map_nth. cbn [fst seen].
    apply (nth_map_seq0 (fun j => nth (other k j) (fst (nth t l ([], []))) 0%Z)). exact H.
  Qed.
  Lemma seen_spectra l t : spectra_at (map (seen nsens k) l) t = map (seen_row nsens k) (spectra_at l t).
  Proof.
    unfold spectra_at. destruct (Nat.lt_ge_cases t (length l)) as [H|H].
    - rewrite (nth_indep _ ([], []) (seen nsens k ([], []))) by (rewrite map_length; exact H). rewrite map_nth. reflexivity.
    - rewrite !nth_overflow by (rewrite ?map_length; exact H). reflexivity.
  Qed.
  Lemma seen_entry y b : (b < length y)%nat -> entry (map (seen_row nsens k) y) b 0 = entry y b (first_sensor nsens k) /\
    forall j, (j < n - 1)%nat -> entry (map (seen_row nsens k) y) b (1 + j) = entry y b (first_sensor nsens (other k j)).
  Proof.
    intros H. unfold entry. rewrite (nth_indep _ [] (seen_row nsens k [])) by (rewrite map_length; exact H). rewrite map_nth. split; [apply seen_row_0|]. intros j Hj. now apply seen_row_S.
  Qed.

  (** flags go to the first sensors of their nodes *)
  Definition placed (x : list Z * list (list cx)) : Prop := forall q, (q < n)%nat ->
    nth (first_sensor nsens q) (extra_shifts_centr nsens k (map (fun f => Some (IZR f)) (fst x))) 0 = if Nat.eqb q k then 0 else IZR (nth q (fst x) 0%Z).
  Lemma drift_some f q : drift (map (fun f => Some (IZR f)) f) q = IZR (nth q f 0%Z).
  Proof.
    unfold drift. destruct (Nat.lt_ge_cases q (length f)) as [H|H].
    - rewrite (nth_indep _ None (Some (IZR 0%Z))) by (rewrite map_length; exact H). now rewrite (map_nth (fun f => Some (IZR f))).
    - rewrite (nth_overflow (map _ _)) by (rewrite map_length; exact H). now rewrite nth_overflow.
  Qed.
  Lemma placed_equal x m : nsens = repeat m n -> placed x.
  Proof.
    intros E q Hq. assert (Hm : (0 < m)%nat). { rewrite E in Hpos. rewrite Forall_forall in Hpos. apply Hpos. destruct n; [lia|]. now left. }
    pose proof (extra_centr_equal m n k (map (fun f => Some (IZR f)) (fst x)) q 0 Hk Hq Hm) as X. rewrite <- E in X.
    replace (first_sensor nsens q) with (q * m + 0)%nat by (rewrite E, first_sensor_repeat by lia; lia). rewrite X.
    destruct (Nat.eqb q k); [reflexivity|]. rewrite andb_false_r. apply drift_some.
  Qed.
  Lemma no_flags fl : Forall (fun f => f = Some 0) fl -> forall p, nth p (extra_shifts_centr nsens k fl) 0 = 0.
  Proof.
    intros F. unfold extra_shifts_centr. set (f := fun acc q => _).
    assert (G : forall l acc, (forall p, nth p acc 0 = 0) -> forall p, nth p (fold_left f l acc) 0 = 0).
    { induction l as [|q l IH]; intros acc HA p; [apply HA|]. cbn [fold_left]. apply IH. intros p'. unfold f. destruct (Nat.eqb q k); [apply HA|].
      destruct (nth q fl None) as [v|] eqn:E; [|apply HA].
      assert (v = 0). { destruct (Nat.lt_ge_cases q (length fl)) as [H|H]; [|rewrite nth_overflow in E by exact H; discriminate]. rewrite Forall_forall in F. specialize (F _ (nth_In fl None H)). rewrite E in F. now injection F. }
      subst v. destruct (Nat.lt_ge_cases p' (length acc)) as [H|H]; [|now rewrite nth_overflow by (rewrite set_range_len; exact H)].
      rewrite nth_set_range by exact H. rewrite HA. now destruct (_ && _). }
    apply G. intros p. apply nth_repeat.
  Qed.
  Lemma placed_none x : Forall (fun f => f = 0%Z) (fst x) -> placed x.
  Proof.
    intros F q Hq. rewrite no_flags. 2:{ rewrite Forall_map. eapply Forall_impl; [|exact F]. intros f ->. reflexivity. }
    destruct (Nat.eqb q k); [reflexivity|]. destruct (Nat.lt_ge_cases q (length (fst x))) as [H|H]; [|now rewrite nth_overflow].
    rewrite Forall_forall in F. now rewrite (F _ (nth_In (fst x) 0%Z H)).
  Qed.

  (** compensated spectra of the two runs *)
  Lemma coherences_entries q y y' ik iq : length y = length y' -> (forall b, (b < length y)%nat -> entry y b 0 = entry y' b ik /\ entry y b q = entry y' b iq) -> coherences q y = cc_coherences ik iq y'.
  Proof.
    intros HL H. unfold coherences, cc_coherences. set (F := fun row => coherence (nth 0 row czero) (nth q row czero)). set (G := fun row => coherence (nth ik row czero) (nth iq row czero)).
    apply (nth_ext _ _ (F []) (G [])); [now rewrite !map_length|]. rewrite map_length. intros b Hb. rewrite !map_nth. unfold F, G. destruct (H b Hb) as [A B]. unfold entry in A, B. now rewrite A, B.
  Qed.
  Hypothesis HK : (2 <= K)%nat.
  Lemma cmp_centr l estc psfc outsc : Forall (wf_centr_frame K nsens) l ->
    sro_run_centr nsens k N Ns (inputs l estc) = (psfc, outsc) -> length l = length estc -> Forall (fun r => length r = n) estc ->
    length psfc = list_sum nsens /\ length outsc = length l /\ forall i, (i < length l)%nat -> length (nth i (map snd outsc) []) = K /\
      forall b q s, (b < K)%nat -> (q < n)%nat -> (s < nth q nsens 0)%nat -> entry (nth i (map snd outsc) []) b (first_sensor nsens q + s) =
        delayed N b (shift_at Ns (fun t => nth (first_sensor nsens q + s) (extra_shifts_centr nsens k (map (fun f => Some (IZR f)) (fst (nth t l ([], []))))) 0) (fun t => nth q (nth t estc []) 0) i)
          (entry (spectra_at l i) b (first_sensor nsens q + s)).
  Proof.
    intros Hl E HLe HFe.
    assert (Hin : Forall (wf_centr nsens) (inputs l estc)).
    { unfold inputs. rewrite Forall_map, Forall_forall in *. intros [x e] Hx. pose proof (Hl x (in_combine_l _ _ _ _ Hx)) as (A & B & C). pose proof (HFe e (in_combine_r _ _ _ _ Hx)) as D.
      repeat split; cbn [fst snd si_flags si_est si_y]; [now rewrite map_length|exact D|exact C]. }
    destruct (sro_run_centr_spec nsens k N Ns (inputs l estc) ltac:(lia) Hin) as (psf & outs & E' & Lp & Lo & _ & H). rewrite E in E'. assert (EE : psf = psfc /\ outs = outsc) by (split; congruence). destruct EE; subst psf outs.
    rewrite (inputs_length _ _ HLe) in *. split; [exact Lp|]. split; [exact Lo|]. intros i Hi.
    assert (En : nth i (map snd outsc) [] = snd (nth i outsc (false, []))). { rewrite (nth_indep _ [] (snd (false, @nil (list cx)))) by (rewrite map_length; lia). now rewrite map_nth. }
    rewrite En. destruct (H i Hi) as (_ & L2 & C2). rewrite (inputs_nth _ _ _ HLe Hi) in L2, C2. cbn [si_y] in L2, C2.
    assert (HW : wf_centr_frame K nsens (nth i l ([], []))) by (rewrite Forall_forall in Hl; apply Hl, nth_In, Hi). destruct HW as (W1 & W2 & W3).
    split; [congruence|]. intros b q s Hb Hq Hs. rewrite (C2 b q s ltac:(rewrite W2; exact Hb) Hq Hs). f_equal.
    apply shift_ext; intros t Ht; rewrite (inputs_nth _ _ _ HLe) by lia; reflexivity.
  Qed.
  Hypothesis Hev : (0 < cd_every c)%nat.
  Hypothesis Hseg : (cd_seg c <= cd_start c + cd_every c)%nat.
  Lemma cmp_rel l estc st psfc outsc : Forall (wf_centr_frame K nsens) l -> shape c Ns K 1 (n - 1) (map (seen nsens k) l) st ->
    sro_run_centr nsens k N Ns (inputs l estc) = (psfc, outsc) -> length estc = length l -> Forall (fun r => length r = n) estc ->
    (forall t, (S t < length l)%nat -> nth k (nth t estc []) 0 = 0 /\ forall j, (j < n - 1)%nat -> nth (other k j) (nth t estc []) 0 = estimate_of st j t) ->
    Forall placed l -> forall i j, (i < length l)%nat -> (j < n - 1)%nat ->
    coherences (1 + j) (nth i (cs_cmp st) []) = cc_coherences (first_sensor nsens k) (first_sensor nsens (other k j)) (nth i (map snd outsc) []).
  Proof.
    intros Hl HS E HLe HFe He HP i j Hi Hj. symmetry in HLe.
    destruct (compensated c Ns K 1 (n - 1) HK Hev Hseg (map (seen nsens k) l) st (seen_wf l Hl) HS) as (Lc & Hc). rewrite map_length in Lc, Hc.
    destruct (cmp_centr l estc psfc outsc Hl E HLe HFe) as (_ & _ & H). destruct (Hc i Hi) as (L1 & C1). destruct (H i Hi) as (L2 & C2).
    assert (HW : wf_centr_frame K nsens (nth i l ([], []))) by (rewrite Forall_forall in Hl; apply Hl, nth_In, Hi). destruct HW as (W1 & W2 & W3).
    destruct (other_lt j Hj) as (Ho & Hok).
    assert (HB : forall b q, (b < K)%nat -> (q < n)%nat -> entry (nth i (map snd outsc) []) b (first_sensor nsens q) =
      delayed N b (shift_at Ns (fun t => if Nat.eqb q k then 0 else IZR (flag_at l q t)) (fun t => nth q (nth t estc []) 0) i) (entry (spectra_at l i) b (first_sensor nsens q))).
    { intros b q Hb Hq. pose proof (C2 b q 0%nat Hb Hq ltac:(rewrite Forall_forall in Hpos; apply Hpos, nth_In, Hq)) as X. rewrite Nat.add_0_r in X. rewrite X. f_equal.
      apply shift_ext; intros t Ht; [|reflexivity]. rewrite Forall_forall in HP. apply (HP (nth t l ([], [])) ltac:(apply nth_In; lia) q Hq). }
    apply coherences_entries; [congruence|]. rewrite L1. intros b Hb. destruct (seen_entry (spectra_at l i) b ltac:(unfold spectra_at; rewrite W2; exact Hb)) as (S0 & S1).
    split.
    - rewrite (C1 b 0%nat Hb ltac:(lia)), (HB b k Hb Hk), Nat.eqb_refl. cbn [Nat.leb]. rewrite seen_spectra, S0. f_equal.
      unfold shift_at. rewrite (sumR_ext' i (fun t => nth k (nth t estc []) 0) (fun _ => 0)).
      + assert (Z0 : forall m, sumR m (fun _ => 0) = 0) by (induction m as [|m IH]; cbn [sumR]; [reflexivity|rewrite IH; ring]). rewrite !Z0. ring.
      + intros t Ht. apply He. lia.
    - rewrite (C1 b (1 + j)%nat Hb ltac:(lia)), (HB b (other k j) Hb Ho). destruct (Nat.eqb_spec (other k j) k); [contradiction|]. cbn [Nat.leb Nat.add].
      replace (S j - 1)%nat with j by lia. rewrite seen_spectra. rewrite <- (S1 j Hj). cbn [Nat.add]. f_equal.
      apply shift_ext; intros t Ht; [apply f_equal, seen_flag_at; lia|]. symmetry. apply He; lia.
  Qed.

  (** One run and the other *)
  Record rel (l : list (list Z * list (list cx))) (stc st : cdst) : Prop := {
    rc_navg : length (cs_avg stc) = n;
    rc_avg : forall j, (j < n - 1)%nat -> nth (other k j) (cs_avg stc) [] = nth j (cs_avg st) [];
    rc_flags : cs_flags stc = map fst l;
    rc_unc : cs_unc stc = map snd l;
    rc_nres : length (cs_res stc) = length l;
    rc_res : forall t, (t < length l)%nat -> length (nth t (cs_res stc) []) = n /\ nth k (nth t (cs_res stc) []) 0 = 0 /\
      forall j, (j < n - 1)%nat -> nth (other k j) (nth t (cs_res stc) []) 0 = residual_of st j t;
    rc_est : cs_est stc = map (map (from_residual c)) (cs_res stc);
    rc_run : exists outs, sro_run_centr nsens k N Ns (inputs l (cs_est stc)) = (cs_psf stc, outs) /\ map snd outs = cs_cmp stc
  }.
  Lemma from_0 : from_residual c 0 = 0.
  Proof. unfold from_residual, Rdiv. destruct (cd_closed c); ring. Qed.
  Lemma est_nth stc (l : list (list Z * list (list cx))) q t : length (cs_res stc) = length l -> cs_est stc = map (map (from_residual c)) (cs_res stc) -> (t < length l)%nat -> (q < length (nth t (cs_res stc) []))%nat ->
    nth q (nth t (cs_est stc) []) 0 = from_residual c (nth q (nth t (cs_res stc) []) 0).
  Proof.
    intros HL -> Ht Hq. rewrite (nth_indep _ [] (map (from_residual c) [])) by (rewrite map_length, HL; exact Ht). rewrite map_nth.
    rewrite (nth_indep _ 0 (from_residual c 0)) by (now rewrite map_length). now rewrite map_nth.
  Qed.
  Lemma other_inj i j : other k i = other k j -> i = j.
  Proof. unfold other. destruct (Nat.ltb_spec i k), (Nat.ltb_spec j k); lia. Qed.
  Definition rank (q : nat) : nat := if (q <? k)%nat then q else (q - 1)%nat.
  Lemma rank_other j : rank (other k j) = j.
  Proof. unfold rank, other. destruct (Nat.ltb_spec j k); [destruct (Nat.ltb_spec j k)|destruct (Nat.ltb_spec (S j) k)]; lia. Qed.

  Lemma run_rel l : Forall (wf_centr_frame K nsens) l -> (cd_closed c = false \/ Forall placed l) ->
    exists stc st, cc_run c L Ns N nsens k l = Ok stc /\ cd_run c L Ns N 1 (n - 1) (map (seen nsens k) l) = Ok st /\ shape c Ns K 1 (n - 1) (map (seen nsens k) l) st /\ rel l stc st.
  Proof.
    induction l as [|x l IH] using rev_ind; intros Hl HP.
    - destruct (run_ok c L Ns K 1 (n - 1) HK Hev Hseg [] (Forall_nil _)) as (st & E & HS). exists (cc_init N nsens), st. split; [reflexivity|]. split; [exact E|]. split; [exact HS|].
      cbn [map] in E. assert (ES : st = cd_init N 1 (n - 1)) by (unfold cd_run in E; cbn [foldM] in E; congruence). subst st.
      constructor; cbn [cc_init cd_init cs_avg cs_flags cs_unc cs_res cs_est cs_psf cs_cmp length map]; try reflexivity.
      + apply repeat_length.
      + intros j Hj. rewrite !(nth_indep _ [] (repeat czero N)) by (rewrite repeat_length; pose proof (other_lt j Hj); lia). now rewrite !nth_repeat.
      + intros t Ht. lia.
      + exists []. split; reflexivity.
    - pose proof Hl as Hl0. apply Forall_app in Hl as (Hl & Hx). apply Forall_inv in Hx.
      assert (HP' : cd_closed c = false \/ Forall placed l) by (destruct HP as [H|H]; [now left|right; now apply Forall_app in H]).
      destruct (IH Hl HP') as (stc & st & Ec & Ed & HS & HR). clear IH.
      destruct (run_snoc c L Ns K 1 (n - 1) HK Hev Hseg (map (seen nsens k) l) st (seen nsens k x)) as (st' & e & Ed' & HS' & Le & Er' & Ea' & _ & Hest); [|exact Ed|exact HS|].
      { change [seen nsens k x] with (map (seen nsens k) [x]). rewrite <- map_app. apply seen_wf. exact Hl0. }
      rewrite map_length in Hest. change [seen nsens k x] with (map (seen nsens k) [x]) in Ed', HS'. rewrite <- map_app in Ed', HS'.
      destruct (rc_run _ _ _ HR) as (outs & Eo & Eoc).
      assert (HLe : length l = length (cs_est stc)) by (rewrite (rc_est _ _ _ HR), map_length, (rc_nres _ _ _ HR); reflexivity).
      assert (HFe : Forall (fun r => length r = n) (cs_est stc)).
      { rewrite (rc_est _ _ _ HR), Forall_map. apply Forall_forall. intros r Hr. rewrite map_length. apply (In_nth _ _ []) in Hr. destruct Hr as (t & Ht & <-). rewrite (rc_nres _ _ _ HR) in Ht. apply (rc_res _ _ _ HR t Ht). }
      destruct (cmp_centr l (cs_est stc) (cs_psf stc) outs Hl Eo HLe HFe) as (Lp & Lo & Ho).
      set (psf1 := vadd (cs_psf stc) (extra_shifts_centr nsens k (map (fun f => Some (IZR f)) (fst x)))).
      (* residuals of the two *)
      set (g := fun q => if Nat.eqb q k then (0, nth k (cs_avg stc) []) else nth (rank q) e (0, [])).
      set (st1 := mkCS psf1 (cs_avg stc) (cs_flags stc ++ [fst x]) (cs_unc stc ++ [snd x]) (cs_cmp stc ++ [apply_shifts N psf1 (snd x)]) (cs_res stc) (cs_est stc)).
      assert (RS : forall t j, (t < length l)%nat -> residual_of st' j t = residual_of st j t).
      { intros t j Ht. unfold residual_of. rewrite Er', app_nth1; [reflexivity|]. rewrite (sh_nres _ _ _ _ _ _ _ HS), map_length. exact Ht. }
      assert (Hcoh : cd_closed c = true -> forall i j, (i <= length l)%nat -> (j < n - 1)%nat ->
        coherences (1 + j) (nth i (cs_cmp st') []) = cc_coherences (first_sensor nsens k) (first_sensor nsens (other k j)) (nth i (cs_cmp st1) [])).
      { intros Hcl i j Hi Hj. destruct HP as [HP|HP]; [congruence|].
        pose proof (cmp_rel (l ++ [x]) (cs_est stc ++ [repeat 0 n]) st' (move_shifts_centr nsens Ns (repeat 0 n) psf1) (outs ++ [(skip_update_centr k (map (fun f => Some (IZR f)) (fst x)), apply_shifts N psf1 (snd x))]) Hl0 HS') as X.
        rewrite map_app in X. cbn [map snd] in X. rewrite Eoc in X. apply X; clear X.
        - rewrite inputs_snoc by exact HLe. unfold sro_run_centr in *. rewrite fold_left_app, Eo. cbn [fold_left]. unfold sro_step_centr. cbn [fst snd si_flags si_est si_y]. reflexivity.
        - rewrite !app_length. cbn [length]. lia.
        - apply Forall_app. split; [exact HFe|]. constructor; [apply repeat_length|constructor].
        - rewrite app_length. cbn [length]. intros t Ht. rewrite app_nth1 by lia. destruct (rc_res _ _ _ HR t ltac:(lia)) as (R1 & R2 & R3). split.
          + rewrite (est_nth stc l) by (try apply HR; lia). rewrite R2. apply from_0.
          + intros q Hq. destruct (other_lt q Hq). rewrite (est_nth stc l) by (try apply HR; lia). rewrite (R3 q Hq). rewrite <- (RS t q) by lia. symmetry.
            apply (estimate_residual c Ns K 1 (n - 1) (map (seen nsens k) (l ++ [x]))); [exact HS'|exact Hq|rewrite map_length, app_length; lia].
        - exact HP.
        - rewrite app_length. cbn [length]. lia.
        - exact Hj. }
      assert (Hg : forall q, (q < n)%nat -> cc_estimate c L Ns nsens k (length l) q st1 = Ok (g q)).
      { intros q Hq. unfold cc_estimate, g. cbn [st1 cs_avg]. rewrite (get_lt (cs_avg stc) q []) by (rewrite (rc_navg _ _ _ HR); exact Hq). cbn [bind].
        destruct (Nat.eqb_spec q k) as [->|Hqk]; [reflexivity|]. destruct (other_inv q Hq Hqk) as (j & Hj & ->). rewrite rank_other.
        destruct (Hest j Hj) as (s1 & E1 & A1 & A2 & A3 & A4). unfold estimate_one in E1. rewrite A1 in E1.
        rewrite (get_lt (cs_avg st) j []) in E1 by (rewrite (sh_navg _ _ _ _ _ _ _ HS); exact Hj). cbn [bind] in E1. rewrite (rc_avg _ _ _ HR j Hj).
        destruct (is_instant c (length l)) eqn:EI; [|exact E1]. destruct (length l <? cd_seg c)%nat eqn:EL; [discriminate|].
        apply Nat.ltb_ge in EL.
        assert (LC : length (cs_cmp st') = length (l ++ [x])). { destruct (compensated c Ns K 1 (n - 1) HK Hev Hseg _ st' (seen_wf _ Hl0) HS') as (LC & _). now rewrite map_length in LC. }
        assert (LCc : length (cs_cmp stc) = length l) by (rewrite <- Eoc, map_length; exact Lo).
        assert (LU : length (cs_unc st') = length (l ++ [x])) by (rewrite (sh_unc _ _ _ _ _ _ _ HS'), !map_length; reflexivity).
        assert (GC : forall i, (i <= length l)%nat -> get (if cd_closed c then cs_cmp s1 else cs_unc s1) i = Ok (nth i (if cd_closed c then cs_cmp st' else cs_unc st') []) /\
          get (if cd_closed c then cs_cmp stc ++ [apply_shifts N psf1 (snd x)] else cs_unc stc ++ [snd x]) i = Ok (nth i (if cd_closed c then cs_cmp st1 else cs_unc st1) []) /\
          coherences (1 + j) (nth i (if cd_closed c then cs_cmp st' else cs_unc st') []) = cc_coherences (first_sensor nsens k) (first_sensor nsens (other k j)) (nth i (if cd_closed c then cs_cmp st1 else cs_unc st1) [])).
        { intros i Hi. rewrite app_length in LC, LU. cbn [length] in LC, LU. rewrite A3, A4. destruct (cd_closed c) eqn:Ecl.
          - split; [apply get_lt; lia|]. split; [cbn [st1 cs_cmp]; apply get_lt; rewrite app_length; cbn [length]; lia|]. now apply Hcoh.
          - split; [apply get_lt; lia|]. split; [cbn [st1 cs_unc]; apply get_lt; rewrite (rc_unc _ _ _ HR), app_length, map_length; cbn [length]; lia|].
            rewrite (sh_unc _ _ _ _ _ _ _ HS'). cbn [st1 cs_unc]. rewrite (rc_unc _ _ _ HR). change [snd x] with (map snd [x]). rewrite <- map_app, <- seen_coherences by exact Hj.
            f_equal. rewrite map_map. rewrite (nth_indep _ [] (snd (seen nsens k ([], [])))) by (rewrite map_length, app_length; cbn [length]; lia). rewrite (map_nth (fun y => snd (seen nsens k y))).
            rewrite (nth_indep (map snd _) [] (snd (@nil Z, @nil (list cx)))) by (rewrite map_length, app_length; cbn [length]; lia). rewrite map_nth. reflexivity. }
        destruct (GC (length l) (Nat.le_refl _)) as (G1 & G2 & G3). destruct (GC (length l - cd_seg c)%nat ltac:(lia)) as (G4 & G5 & G6).
        cbn [st1 cs_cmp cs_unc] in *. rewrite G2, G5. cbn [bind]. rewrite G1, G4 in E1. cbn [bind] in E1. rewrite G3, G6 in E1.
        rewrite A2, (sh_flags _ _ _ _ _ _ _ HS') in E1. rewrite !seen_flags in E1 by exact Hj.
        cbn [st1 cs_flags]. rewrite (rc_flags _ _ _ HR). change [fst x] with (map fst [x]). rewrite <- map_app. exact E1. }
      assert (Hm : mapM (fun q => cc_estimate c L Ns nsens k (length l) q st1) (seq 0 n) = Ok (map g (seq 0 n))).
      { apply mapM_fun. intros q Hq. apply Hg. apply in_seq in Hq. lia. }
      eexists _, st'. split; [|split; [exact Ed'|split; [exact HS'|]]].
      + unfold cc_run in *. rewrite foldM_app, Ec. cbn [bind foldM]. unfold cc_step. destruct (Nat.eqb_spec (cd_every c) 0); [lia|]. rewrite (rc_unc _ _ _ HR), map_length. fold psf1.
        rewrite <- (rc_unc _ _ _ HR). fold st1. rewrite Hm. cbn [bind]. reflexivity.
      + assert (GO : forall j, (j < n - 1)%nat -> g (other k j) = nth j e (0, [])) by (intros j Hj; unfold g; destruct (other_lt j Hj) as (_ & H); destruct (Nat.eqb_spec (other k j) k); [contradiction|]; now rewrite rank_other).
        constructor; cbn [cs_avg cs_flags cs_unc cs_res cs_est cs_psf cs_cmp st1].
        * now rewrite !map_length, seq_length.
        * intros j Hj. destruct (other_lt j Hj) as (H & _). rewrite map_map, (nth_map_seq0 (fun q => snd (g q))) by exact H. rewrite (GO j Hj), Ea'.
          rewrite (nth_indep (map snd e) [] (snd (0, @nil cx))) by (rewrite map_length; lia). now rewrite map_nth.
        * rewrite (rc_flags _ _ _ HR), map_app. reflexivity.
        * rewrite (rc_unc _ _ _ HR), map_app. reflexivity.
        * rewrite !app_length, (rc_nres _ _ _ HR). reflexivity.
        * rewrite app_length. cbn [length]. intros t Ht. destruct (Nat.eq_dec t (length l)) as [->|Hne].
          -- rewrite app_nth2, (rc_nres _ _ _ HR), Nat.sub_diag by (rewrite (rc_nres _ _ _ HR); lia). cbn [nth]. rewrite map_map. split; [now rewrite map_length, seq_length|].
             split; [rewrite (nth_map_seq0 (fun q => fst (g q))) by exact Hk; unfold g; now rewrite Nat.eqb_refl|].
             intros j Hj. destruct (other_lt j Hj) as (H & _). rewrite (nth_map_seq0 (fun q => fst (g q))) by exact H. rewrite (GO j Hj). unfold residual_of. rewrite Er'.
             assert (LR : length (cs_res st) = length l) by (rewrite (sh_nres _ _ _ _ _ _ _ HS), map_length; reflexivity).
             rewrite app_nth2, LR, Nat.sub_diag by lia. cbn [nth]. rewrite (nth_indep (map fst e) 0 (fst (0, @nil cx))) by (rewrite map_length; lia). now rewrite map_nth.
          -- rewrite app_nth1 by (rewrite (rc_nres _ _ _ HR); lia). destruct (rc_res _ _ _ HR t ltac:(lia)) as (R1 & R2 & R3). split; [exact R1|split; [exact R2|]]. intros j Hj. rewrite RS by lia. now apply R3.
        * rewrite map_app, (rc_est _ _ _ HR). reflexivity.
        * eexists (outs ++ [(skip_update_centr k (map (fun f => Some (IZR f)) (fst x)), apply_shifts N psf1 (snd x))]). rewrite map_app, Eoc. split; [|reflexivity].
          rewrite inputs_snoc by exact HLe. unfold sro_run_centr in *. rewrite fold_left_app, Eo. cbn [fold_left]. unfold sro_step_centr. cbn [fst snd si_flags si_est si_y]. reflexivity.
  Qed.

  (** Runs with any flags *)
  Record total (l : list (list Z * list (list cx))) (stc : cdst) : Prop := {
    tt_navg : length (cs_avg stc) = n;
    tt_avg : Forall (fun a => length a = N) (cs_avg stc);
    tt_unc : cs_unc stc = map snd l;
    tt_nres : length (cs_res stc) = length l;
    tt_res : Forall (fun r => length r = n /\ nth k r 0 = 0) (cs_res stc);
    tt_est : cs_est stc = map (map (from_residual c)) (cs_res stc);
    tt_run : exists outs, sro_run_centr nsens k N Ns (inputs l (cs_est stc)) = (cs_psf stc, outs) /\ map snd outs = cs_cmp stc
  }.
  Lemma cc_coherences_len ik iq y : length (cc_coherences ik iq y) = length y.
  Proof. apply map_length. Qed.
  Lemma total_est l stc : total l stc -> length l = length (cs_est stc) /\ Forall (fun r => length r = n) (cs_est stc).
  Proof.
    intros H. rewrite (tt_est _ _ H), map_length, (tt_nres _ _ H). split; [reflexivity|]. rewrite Forall_map. eapply Forall_impl; [|apply (tt_res _ _ H)]. intros r (Hr & _). now rewrite map_length.
  Qed.
  Lemma nth_snoc_cmp (P : list (list cx) -> Prop) (h : list (list (list cx))) z i : (forall t, (t < length h)%nat -> P (nth t h [])) -> P z -> (i <= length h)%nat -> P (nth i (h ++ [z]) []).
  Proof. intros H Hz Hi. destruct (Nat.eq_dec i (length h)) as [->|]; [rewrite app_nth2, Nat.sub_diag by lia; exact Hz|rewrite app_nth1 by lia; apply H; lia]. Qed.
  Lemma run_total l : Forall (wf_centr_frame K nsens) l -> exists stc, cc_run c L Ns N nsens k l = Ok stc /\ total l stc.
  Proof.
    induction l as [|x l IH] using rev_ind; intros Hl.
    - eexists. split; [reflexivity|]. constructor; cbn [cc_init cs_avg cs_flags cs_unc cs_res cs_est cs_psf cs_cmp length map]; try reflexivity; try constructor.
      + apply repeat_length.
      + apply Forall_forall. intros a Ha. apply repeat_spec in Ha. subst a. apply repeat_length.
      + exists []. split; reflexivity.
    - apply Forall_app in Hl as (Hl & Hx). apply Forall_inv in Hx. destruct (IH Hl) as (stc & Ec & HT). clear IH. destruct (tt_run _ _ HT) as (outs & Eo & Eoc). destruct (total_est _ _ HT) as (HLe & HFe).
      destruct (cmp_centr l (cs_est stc) (cs_psf stc) outs Hl Eo HLe HFe) as (Lp & Lo & Ho).
      set (psf1 := vadd (cs_psf stc) (extra_shifts_centr nsens k (map (fun f => Some (IZR f)) (fst x)))).
      set (st1 := mkCS psf1 (cs_avg stc) (cs_flags stc ++ [fst x]) (cs_unc stc ++ [snd x]) (cs_cmp stc ++ [apply_shifts N psf1 (snd x)]) (cs_res stc) (cs_est stc)).
      assert (Lc : length (cs_cmp stc) = length l) by (rewrite <- Eoc, map_length; exact Lo).
      assert (Lu : length (cs_unc stc) = length l) by (rewrite (tt_unc _ _ HT), map_length; reflexivity).
      assert (LK : forall i, (i <= length l)%nat -> length (nth i (if cd_closed c then cs_cmp st1 else cs_unc st1) []) = K /\ get (if cd_closed c then cs_cmp st1 else cs_unc st1) i = Ok (nth i (if cd_closed c then cs_cmp st1 else cs_unc st1) [])).
      { intros i Hi. destruct Hx as (X1 & X2 & X3). destruct (cd_closed c); cbn [st1 cs_cmp cs_unc]; (split; [|apply get_lt; rewrite app_length; cbn [length]; lia]).
        - apply (nth_snoc_cmp (fun y => length y = K)); [|rewrite apply_shifts_len; exact X2|lia]. rewrite Lc, <- Eoc. intros t Ht. apply (Ho t Ht).
        - apply (nth_snoc_cmp (fun y => length y = K)); [|exact X2|lia]. rewrite Lu, (tt_unc _ _ HT). intros t Ht. rewrite (nth_indep _ [] (snd (@nil Z, @nil (list cx)))) by (rewrite map_length; exact Ht). rewrite map_nth.
          rewrite Forall_forall in Hl. apply (Hl _ (nth_In l ([], []) Ht)). }
      assert (HE : forall q, (q < n)%nat -> exists r, cc_estimate c L Ns nsens k (length l) q st1 = Ok r /\ length (snd r) = N /\ (q = k -> fst r = 0)).
      { intros q Hq. unfold cc_estimate. change (cs_avg st1) with (cs_avg stc). rewrite (get_lt (cs_avg stc) q []) by (rewrite (tt_navg _ _ HT); exact Hq). cbn [bind].
        assert (LA : length (nth q (cs_avg stc) []) = N). { pose proof (tt_avg _ _ HT) as F. rewrite Forall_forall in F. apply F, nth_In. rewrite (tt_navg _ _ HT). exact Hq. }
        destruct (Nat.eqb_spec q k) as [->|Hqk]; [eexists; split; [reflexivity|]; split; [exact LA|reflexivity]|].
        destruct (is_instant c (length l)) eqn:EI; [|eexists; split; [reflexivity|]; split; [exact LA|reflexivity]].
        destruct (Nat.ltb_spec (length l) (cd_seg c)) as [H|H]. { unfold is_instant in EI. apply andb_prop in EI as (EI & _). apply Nat.leb_le in EI. lia. }
        destruct (LK (length l) (Nat.le_refl _)) as (G1 & ->). destruct (LK (length l - cd_seg c)%nat ltac:(lia)) as (G3 & ->). cbn [bind].
        edestruct (cohdrift_ok c K Ns) as (r & a & Er & La); [exact HK| | | |exists (r, a); split; [exact Er|]; split; [exact La|congruence]]; rewrite ?cc_coherences_len; [exact G1|exact G3|exact LA]. }
      set (g := fun q => match cc_estimate c L Ns nsens k (length l) q st1 with Ok r => r | Err _ => (0, []) end).
      assert (Hg : forall q, (q < n)%nat -> cc_estimate c L Ns nsens k (length l) q st1 = Ok (g q) /\ length (snd (g q)) = N /\ (q = k -> fst (g q) = 0)).
      { intros q Hq. unfold g. destruct (HE q Hq) as (r & -> & H1 & H2). split; [reflexivity|]. split; assumption. }
      eexists. split.
      + unfold cc_run in *. rewrite foldM_app, Ec. cbn [bind foldM]. unfold cc_step. destruct (Nat.eqb_spec (cd_every c) 0); [lia|]. rewrite Lu. fold psf1. fold st1.
        rewrite (mapM_fun _ g) by (intros q Hq; apply in_seq in Hq; apply Hg; lia). cbn [bind]. reflexivity.
      + constructor; cbn [cs_avg cs_flags cs_unc cs_res cs_est cs_psf cs_cmp st1].
        * now rewrite !map_length, seq_length.
        * rewrite map_map, Forall_map. apply Forall_forall. intros q Hq. apply in_seq in Hq. apply Hg. lia.
        * rewrite (tt_unc _ _ HT), map_app. reflexivity.
        * rewrite !app_length, (tt_nres _ _ HT). reflexivity.
        * apply Forall_app. split; [apply HT|]. constructor; [|constructor]. rewrite map_map, map_length, seq_length. split; [reflexivity|]. rewrite (nth_map_seq0 (fun q => fst (g q))) by exact Hk. now apply (Hg k Hk).
        * rewrite map_app, (tt_est _ _ HT). reflexivity.
        * eexists (outs ++ [(skip_update_centr k (map (fun f => Some (IZR f)) (fst x)), apply_shifts N psf1 (snd x))]). rewrite map_app, Eoc. split; [|reflexivity].
          rewrite inputs_snoc by exact HLe. unfold sro_run_centr in *. rewrite fold_left_app, Eo. cbn [fold_left]. unfold sro_step_centr. cbn [fst snd si_flags si_est si_y]. reflexivity.
  Qed.
End Node.
