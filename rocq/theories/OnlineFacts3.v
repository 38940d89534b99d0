(** Whole runs on a mixture and its components (see OnlineFacts.v). *)
From Verif Require Import Base BaseFacts Sched Buffers BufNat Chunk ChunkSpec ChunkFacts Level Cx CxFacts Wola WolaFacts Dist SroComp Online OnlineSpec OnlineFacts OnlineFacts2.
From Coq Require Import Reals Lra.
Local Open Scope R_scope.

Definition omap (s : sel) (st : ostate (R * R)) : ostate R :=
  mkOS (bmap (gR s) (os_b st)) (map (map (gR s)) (os_zl st)) (os_wir st) (os_up st) (os_psf st) (map (map (gR s)) (os_d st)) (map (map (gR s)) (os_dl st)).
Definition ymap (s : sel) (Y : list (list (list (R * R)))) : list (list (list R)) := map (map (map (gR s))) Y.

Lemma tri_broadcast p nodes z t k B : tri (fun s => bmap (gR s)) (fun s => broadcast p nodes (fun _ _ _ => map (gR s) z) t k (bmap (gR s) B)).
Proof. exists (broadcast p nodes (fun _ _ _ => z) t k B). intros s. apply nat_broadcast. Qed.
Lemma tri_read nb N Ns k B : tri (fun s => bmap (gR s)) (fun s => read_buffers 0 nb N Ns k (bmap (gR s) B)).
Proof. exists (read_buffers (0, 0) nb N Ns k B). intros s. apply nat_read, gR0. Qed.

Lemma tri_to {X Y} (m : sel -> X -> Y) F G : (forall s, G s = F s) -> tri m F -> tri m G.
Proof. intros H. apply tri_ext. intros s. now rewrite H. Qed.

(** The last compressed blocks are silent in all three runs or in none. *)
Definition level_with (st : ostate (R * R)) : Prop :=
  forall prev, In prev (os_zl st) -> exists b, forall s, all_zero (map (gR s) prev) = b.

Lemma tri_online_broadcast c Y t k st : p_whole (o_p c) = false \/ level_with st ->
  tri omap (fun s => online_broadcast c (ymap s Y) t k (omap s st)).
Proof.
  intros Hw. unfold online_broadcast, ymap.
  apply tri_same. intros nd _. apply (tri_bind (fun s => map (map (gR s)))); [apply tri_get|]. intros Yk.
  eapply tri_bind; [apply tri_chunks|]. intros fr.
  set (C := map (fun r => fst (fst r)) fr).
  apply (tri_if _ _ (existsb (fun col => (Z.of_nat (length col) <? p_N (o_p c))%Z) C)).
  { intros s. rewrite chunk_cols_gR. fold C. clear. induction C as [|a C IH]; cbn; [reflexivity|]. now rewrite map_length, IH. }
  { apply tri_err. }
  cbn [omap os_b bmap b_i b_last os_zl os_wir os_up os_psf os_d os_dl]. apply tri_same. intros ik _.
  destruct (p_whole (o_p c)) eqn:Ew.
  - destruct Hw as [Hw|Hw]; [discriminate|].
    destruct (get (os_zl st) k) as [prev|e] eqn:Eg.
    2: { exists (Err e). intros s. rewrite get_map, Eg. reflexivity. }
    eapply tri_to; [intros s; rewrite get_map, Eg; cbn [rmap bind]; reflexivity|].
    destruct (Hw prev) as [b Hb]; [unfold get in Eg; destruct (nth_error (os_zl st) k) eqn:En; [|discriminate]; injection Eg as <-; eapply nth_error_In; exact En|].
    apply (tri_bind (fun s p => (map (gC s) (fst p), map (gR s) (snd p)))).
    + eapply tri_to; [intros s; rewrite chunk_cols_gR; reflexivity|]. eapply tri_compress_whole, Hb.
    + intros z. cbn [fst snd]. apply (tri_bind (fun s => bmap (gR s))); [apply tri_broadcast|]. intros B.
      apply (tri_ok _ _ (mkOS B (upd k (snd z) (os_zl st)) (os_wir st) (os_up st) (os_psf st) (os_d st) (os_dl st))).
      intros s. unfold omap. cbn. now rewrite upd_map.
  - apply tri_same. intros lup _. apply tri_same. intros wir _.
    eapply tri_to; [intros s; rewrite map_length; reflexivity|].
    apply tri_same. intros wir' _. apply tri_same. intros lst _.
    apply (tri_bind (fun s => map (gR s))).
    + eapply tri_to; [intros s; rewrite chunk_cols_gR; reflexivity|]. apply tri_compress_few.
    + intros z. apply (tri_bind (fun s => bmap (gR s))); [apply tri_broadcast|]. intros B.
      apply (tri_ok _ _ (mkOS B (upd k z (os_zl st)) (upd k wir' (os_wir st)) (if (o_every c <=? Z.abs (t - lup))%Z then upd k t (os_up st) else os_up st)
               (os_psf st) (os_d st) (os_dl st))).
      intros s. unfold omap. cbn. now rewrite upd_map.
Qed.

Lemma firstn_gC s n (Y : list (list (cx * cx))) : map (firstn n) (map (map (gC s)) Y) = map (map (gC s)) (map (firstn n) Y).
Proof. rewrite !map_map. apply map_ext. intros r. apply firstn_map. Qed.

Lemma tri_online_update c Y t k st : tri omap (fun s => online_update c (ymap s Y) t k (omap s st)).
Proof.
  unfold online_update, ymap.
  apply tri_same. intros nd _. apply (tri_bind (fun s => map (map (gR s)))); [apply tri_get|]. intros Yk.
  cbn [omap os_b os_zl os_wir os_up os_psf os_d os_dl].
  eapply tri_to; [intros s; cbn [bmap b_i]; fold (bmap (gR s) (os_b st)); reflexivity|].
  apply tri_same. intros ik _.
  apply (tri_bind (fun s => bmap (gR s))); [apply tri_read|]. intros B.
  eapply tri_bind; [apply tri_chunks|]. intros fr.
  apply (tri_bind (fun (_ : sel) (be : Z * Z) => be)).
  { exists (match fr with [] => Err IndexError | r :: _ => Ok (snd (fst r), snd r) end). intros s. now destruct fr as [|[[? ?] ?] fr]. }
  intros [b e]. cbn [fst snd].
  set (C := map (fun r => fst (fst r)) fr).
  apply (tri_bind (fun s => map (map (gR s)))); [cbn [bmap b_z]; apply tri_get|]. intros Zk.
  assert (HC : forall s, chunk_cols (map (fun r => (map (gR s) (fst (fst r)), snd (fst r), snd r)) fr) ++ map (map (gR s)) Zk = map (map (gR s)) (C ++ Zk)).
  { intros s. rewrite chunk_cols_gR, map_app. reflexivity. }
  apply (tri_if _ _ (existsb (fun col => negb (Z.of_nat (length col) =? p_N (o_p c))%Z) (C ++ Zk))).
  { intros s. rewrite HC. generalize (C ++ Zk). induction l as [|a l IH]; cbn; [reflexivity|]. now rewrite map_length, IH. }
  { apply tri_err. }
  cbn [omap os_b bmap b_i b_last b_log os_zl os_wir os_up os_psf os_d os_dl].
  apply tri_same. intros psf _.
  apply (tri_if _ _ (o_comp c && Nat.eqb k 0 && Nat.eqb (length (nbrs nd)) 0)); [reflexivity|apply tri_err|].
  eapply tri_to; [intros s; rewrite map_length; reflexivity|].
  apply tri_same. intros x _. apply tri_same. intros psf2 _.
  destruct (spectra_gC (Z.to_nat (p_N (o_p c))) (Z.to_nat (p_Ns (o_p c))) (o_h c) (C ++ Zk)) as [Yh HY].
  set (psf1 := if o_comp c && o_fsd c then vadd psf x else psf).
  destruct (shifts_gC (Z.to_nat (p_N (o_p c))) psf1 Yh) as [Ys HYs].
  apply (tri_bind (fun s => map (gR s))); [apply tri_get|]. intros D.
  apply (tri_bind (fun s => map (gR s))).
  { eapply tri_ext; [|apply (tri_estimate c (o_int c k (S ik)) (if o_comp c then Ys else Yh) (length (C ++ Zk)) C b e D)].
    intros s. rewrite HC, HY, HYs, chunk_cols_gR, map_length. fold C. now destruct (o_comp c). }
  intros D'. apply (tri_bind (fun s => map (gR s))); [apply tri_get|]. intros DL.
  apply (tri_bind (fun s => map (gR s))).
  { eapply tri_ext; [|apply (tri_estimate c (o_loc c k (S ik)) (map (firstn (length Yk)) Yh) (length Yk) C b e DL)].
    intros s. rewrite HC, HY, chunk_cols_gR, firstn_gC. reflexivity. }
  intros DL'.
  apply (tri_ok _ _ (mkOS B (os_zl st) (os_wir st) (os_up st) (upd k psf2 (os_psf st)) (upd k D' (os_d st)) (upd k DL' (os_dl st)))).
  intros s. unfold omap. cbn. now rewrite !upd_map.
Qed.

Lemma tri_event c Y te st : p_whole (o_p c) = false \/ level_with st -> tri omap (fun s => online_event c (ymap s Y) (omap s st) te).
Proof.
  intros H. unfold online_event. destruct (snd (snd te)); first [apply tri_err|now apply tri_online_broadcast|apply tri_online_update].
Qed.

Lemma foldM_snoc {S E} (f : S -> E -> res S) es e st : foldM f (es ++ [e]) st = bind (foldM f es st) (fun st' => f st' e).
Proof.
  revert st. induction es as [|a es IH]; intros st; cbn; [destruct (f st e); reflexivity|]. destruct (f st a); cbn; [apply IH|reflexivity].
Qed.
Lemma tri_run c Y st : forall es,
  p_whole (o_p c) = false \/
  (forall m st', (forall s, foldM (online_event c (ymap s Y)) (firstn m es) (omap s st) = Ok (omap s st')) -> level_with st') ->
  tri omap (fun s => foldM (online_event c (ymap s Y)) es (omap s st)).
Proof.
  induction es as [|e es IH] using rev_ind; intros H; [now apply (tri_ok _ _ st)|].
  destruct IH as [r Hr].
  { destruct H as [H|H]; [now left|right]. intros m st' Hst.
    destruct (Nat.le_gt_cases m (length es)) as [Hm|Hm].
    - apply (H m). intros s. rewrite firstn_app. replace (m - length es)%nat with 0%nat by lia. cbn. rewrite app_nil_r. apply Hst.
    - apply (H (length es)). intros s. rewrite firstn_app, Nat.sub_diag, firstn_all. cbn. rewrite app_nil_r. rewrite firstn_all2 in Hst by lia. apply Hst. }
  eapply tri_to; [intros s; rewrite foldM_snoc, Hr; reflexivity|].
  destruct r as [st'|e']; cbn [rmap bind]; [|apply tri_err]. apply tri_event.
  destruct H as [H|H]; [now left|right]. apply (H (length es)). intros s.
  rewrite firstn_app, Nat.sub_diag, firstn_all. cbn. rewrite app_nil_r. apply Hr.
Qed.

(** Mixtures as images of pairs *)
Lemma zip_list (y s n : list R) : length y = length s -> length y = length n -> (forall i, nth i y 0 = nth i s 0 + nth i n 0) ->
  exists P, y = map (gR SY) P /\ s = map (gR SS) P /\ n = map (gR SN) P.
Proof.
  revert s n. induction y as [|a y IH]; intros [|b s] [|d n] H1 H2 H; try discriminate; [now exists []|].
  destruct (IH s n) as (P & -> & -> & ->); [now injection H1|now injection H2|intros i; exact (H (S i))|].
  exists ((b, d) :: P). pose proof (H 0%nat) as H0. cbn in H0. cbn. now rewrite <- H0.
Qed.
Lemma zip_cols (y s n : list (list R)) : map (@length R) y = map (@length R) s -> map (@length R) y = map (@length R) n ->
  (forall k i, at2 y k i = at2 s k i + at2 n k i) ->
  exists P, y = map (map (gR SY)) P /\ s = map (map (gR SS)) P /\ n = map (map (gR SN)) P.
Proof.
  revert s n. induction y as [|a y IH]; intros [|b s] [|d n] H1 H2 H; try discriminate; [now exists []|].
  injection H1 as Ha H1. injection H2 as Hb H2.
  destruct (IH s n) as (P & -> & -> & ->); [assumption..|intros k i; exact (H (S k) i)|].
  destruct (zip_list a b d Ha Hb) as (Q & -> & -> & ->); [intros i; exact (H 0%nat i)|]. now exists (Q :: P).
Qed.
Lemma zip_net y s n : mixture y s n -> exists P, y = ymap SY P /\ s = ymap SS P /\ n = ymap SN P.
Proof.
  revert s n. induction y as [|a y IH]; intros [|b s] [|d n] (H1 & H2 & H); try discriminate; [now exists []|].
  injection H1 as Ha H1. injection H2 as Hb H2.
  destruct (IH s n) as (P & -> & -> & ->); [split; [assumption|split; [assumption|]]; intros k c i; exact (H (S k) c i)|].
  destruct (zip_cols a b d Ha Hb) as (Q & -> & -> & ->); [intros k i; exact (H 0%nat k i)|]. now exists (Q :: P).
Qed.
Lemma outputs_add_maps P : outputs_add (map (map (gR SY)) P) (map (map (gR SS)) P) (map (map (gR SN)) P).
Proof.
  split; [rewrite !map_map; apply map_ext; intros; now rewrite !map_length|].
  split; [rewrite !map_map; apply map_ext; intros; now rewrite !map_length|].
  intros k i. unfold at2.
  assert (E : forall s, nth k (map (map (gR s)) P) [] = map (gR s) (nth k P [])) by (intros s; apply (map_nth (map (gR s)) P [])).
  rewrite !E, !nth_gR. reflexivity.
Qed.
Lemma init_omap c ns ref T s : online_init 0 c ns ref T = omap s (online_init (0, 0) c ns ref T).
Proof.
  unfold online_init, omap. cbn. unfold bmap, bufmap, init_state. cbn. rewrite !map_map. f_equal.
  - f_equal. apply map_ext. intros nd. rewrite map_map. reflexivity.
  - apply map_ext. intros _. now rewrite repeat_map, gR0.
  - apply map_ext. intros _. now rewrite repeat_map, gR0.
Qed.
Lemma silent_all_zero z : silent z <-> all_zero z = true.
Proof. symmetry. apply all_zero_true. Qed.

Lemma superposition c y s n sched ns ref T : mixture y s n ->
  p_whole (o_p c) = false \/ silent_together c y s n sched (online_init 0 c ns ref T) ->
  let run x := online_run c x sched (online_init 0 c ns ref T) in
  (exists e, run y = Err e /\ run s = Err e /\ run n = Err e) \/
  (exists ry rs rn, run y = Ok ry /\ run s = Ok rs /\ run n = Ok rn /\
     outputs_add (os_d ry) (os_d rs) (os_d rn) /\ outputs_add (os_dl ry) (os_dl rs) (os_dl rn)).
Proof.
  intros Hm Hw run. destruct (zip_net y s n Hm) as (Y & Ey & Es & En).
  destruct (tri_run c Y (online_init (0, 0) c ns ref T) (flat_events sched)) as [r Hr].
  { destruct Hw as [Hw|Hw]; [now left|right]. intros m st' Hst prev Hp.
    apply In_nth with (d := []) in Hp as (k & Hk & <-).
    exists (all_zero (map (gR SY) (nth k (os_zl st') []))).
    assert (Hs : forall s, nth k (os_zl (omap s st')) [] = map (gR s) (nth k (os_zl st') []))
      by (intros sl; cbn; apply (map_nth (map (gR sl)) (os_zl st') [])).
    destruct (Hw m (omap SY st') (omap SS st') (omap SN st')) with (k := k) as [H1 H2].
    1-3: unfold reached; first [rewrite Ey, (init_omap c ns ref T SY); apply Hst | rewrite Es, (init_omap c ns ref T SS); apply Hst | rewrite En, (init_omap c ns ref T SN); apply Hst].
    rewrite !Hs, !silent_all_zero in H1, H2.
    intros []; [reflexivity| |]; [clear H2|clear H1]; repeat match goal with |- context [all_zero ?z] => destruct (all_zero z) end; intuition congruence. }
  assert (HY : run y = rmap (omap SY) r) by (unfold run, online_run; rewrite Ey, (init_omap c ns ref T SY); apply Hr).
  assert (HS : run s = rmap (omap SS) r) by (unfold run, online_run; rewrite Es, (init_omap c ns ref T SS); apply Hr).
  assert (HN : run n = rmap (omap SN) r) by (unfold run, online_run; rewrite En, (init_omap c ns ref T SN); apply Hr).
  destruct r as [st|e]; [right|left; exists e; now rewrite HY, HS, HN].
  exists (omap SY st), (omap SS st), (omap SN st). rewrite HY, HS, HN. do 3 (split; [reflexivity|]).
  split; apply outputs_add_maps.
Qed.
