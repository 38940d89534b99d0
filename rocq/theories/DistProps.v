(** Property C67: what few-samples broadcasts send.  Vocabulary: DistSpec.v, OutSpec.v. *)
From Verif Require Import Base BaseFacts Sched SchedSpec Buffers BufFacts Chunk ChunkSpec ChunkFacts Cx CxFacts Wola WolaFacts Dist Windows Online OnlineSpec OnlineProps OutSpec OutFacts2 OutFacts3 OutProps DistSpec DistFacts DistFacts2 DistFacts3.
From Coq Require Import Reals Lra.
Local Open Scope R_scope.
Add Ring cxr_dist : cx_ring.

(** ** C67 *)
(** The time-domain filter computed from the coefficients: at lag [j] the impulse response
    of the coefficients (periodic), weighted by the correlation of the windows at lag
    [j + 1].  Entry [m] of the result is for lag [m - N]. *)
Theorem C67_time_domain_filter q h f Ns ws :
  (0 < q)%nat -> length h = (2 * q)%nat -> length f = (2 * q)%nat -> Forall (fun w => length w = (q + 1)%nat) ws ->
  exists r, dist_fct_approx h f Ns ws = Ok r /\ length r = length ws /\
    forall ch, (ch < length ws)%nat -> exists g, impulse q (nth ch ws []) g /\ length (nth ch r []) = (2 * (2 * q) - 1)%nat /\
      forall m, (m < 2 * (2 * q) - 1)%nat -> nth m (nth ch r []) 0 = response h f Ns (2 * q) g (Z.of_nat m - Z.of_nat (2 * q)).
Proof. exact (dist_ok q h f Ns ws). Qed.

(** Complete run, few-samples broadcasting: what node [k] sends at its broadcast at
    instant [t] (event [m]) are the latest [L] samples of its sensor signals, filtered
    with responses [v] and added up, where either
    - no renewal of the filter has been due, and [v] passes the reference sensor; or
    - [v] was derived, at a broadcast [m0] of node [k] less than [upTDfilterEvery] before
      (or now), from the external filter coefficients of the iteration current then. *)
Theorem C67_samples_sent c y q T k sched nsens ref r m t :
  let p := o_p c in
  let nS := length (nth k y []) in
  let evs := flat_events sched in
  (0 < q)%nat -> p_N p = Z.of_nat (2 * q) -> length (o_h c) = (2 * q)%nat -> length (o_f c) = (2 * q)%nat ->
  p_whole p = false -> p_efficient p = false -> (0 <= p_L p <= p_N p)%Z ->
  Forall (fun col => length col = T) (nth k y []) -> (ref < nS)%nat -> nth_error nsens k = Some nS ->
  (o_nofuse c = false \/ nS <> 1%nat) ->
  (forall i, length (o_ext c k i) = nS /\ Forall (fun w => length w = (q + 1)%nat) (o_ext c k i)) ->
  online_run c y sched (online_init 0 c nsens ref T) = Ok r ->
  nth_error evs m = Some (t, (k, Bc)) ->
  let e := (t / period (nth k (o_nodes c) (mkNode 1 [] [])))%Z in
  (0 <= e <= Z.of_nat T)%Z ->
  exists s v, reached c y sched (online_init 0 c nsens ref T) (S m) = Ok s /\
    nth k (os_zl s) [] = map (fun l => fused_sample y k (2 * q) v e (e - p_L p + Z.of_nat l)) (seq 0 (Z.to_nat (p_L p))) /\
    (((forall m' t', (m' <= m)%nat -> nth_error evs m' = Some (t', (k, Bc)) -> (Z.abs t' < o_every c)%Z) /\
      forall ch j, v ch j = if (Nat.eqb ch ref && (j =? 0)%Z)%bool then 1 else 0) \/
     exists m0 t0, (m0 <= m)%nat /\ nth_error evs m0 = Some (t0, (k, Bc)) /\
       (exists m1 t1, (m1 <= m)%nat /\ nth_error evs m1 = Some (t1, (k, Bc)) /\ (o_every c <= Z.abs t1)%Z) /\
       (forall m' t', (m0 < m' <= m)%nat -> nth_error evs m' = Some (t', (k, Bc)) -> (Z.abs (t' - t0) < o_every c)%Z) /\
       forall ch, (ch < nS)%nat -> exists g, impulse q (nth ch (o_ext c k (length (updates_of k (firstn m0 evs)))) []) g /\
         forall j, (- p_N p <= j < p_N p - 1)%Z -> v ch j = response (o_h c) (o_f c) (Z.to_nat (p_Ns p)) (2 * q) g j).
Proof.
  intros p nS evs Hq HN Hh Hf Hwh Heff HL Hy Href Hns Hfu Hext Hrun Hm e He.
  assert (Kn : (k < length nsens)%nat) by (apply nth_error_Some; congruence). assert (Nk : nth k nsens 0%nat = nS) by (now apply nth_error_nth).
  assert (FU : fuses c y k = true).
  { unfold fuses. apply negb_true_iff. destruct Hfu as [->|Hn]; [reflexivity|]. destruct (Nat.eqb_spec (length (nth k y [])) 1); [contradiction|]. apply andb_false_r. }
  set (st0 := online_init 0 c nsens ref T) in *.
  assert (Lm : (m < length evs)%nat) by (apply nth_error_Some; congruence).
  (* states before and after the event *)
  assert (SP : evs = firstn m evs ++ [(t, (k, Bc))] ++ skipn (S m) evs).
  { rewrite <- (firstn_skipn m evs) at 1. f_equal. clear -Hm. revert Hm. generalize evs. induction m as [|m IH]; intros [|a l] H; try discriminate; [injection H as ->; reflexivity|]. cbn [skipn]. rewrite (IH l H). reflexivity. }
  assert (FS : firstn (S m) evs = firstn m evs ++ [(t, (k, Bc))]).
  { replace (S m) with (m + 1)%nat by lia. rewrite SP at 1. rewrite firstn_app. rewrite firstn_length_le by lia. rewrite firstn_all2 by (rewrite firstn_length_le; lia).
    replace (m + 1 - m)%nat with 1%nat by lia. reflexivity. }
  unfold online_run in Hrun. fold evs in Hrun. rewrite SP in Hrun. rewrite foldM_app in Hrun. apply bind_ok in Hrun. destruct Hrun as (s0 & Hs0 & Hrun).
  rewrite foldM_app in Hrun. apply bind_ok in Hrun. destruct Hrun as (s & Hs & _). cbn [foldM] in Hs. apply bind_ok in Hs. destruct Hs as (s' & Hs & X). injection X as ->.
  unfold online_event in Hs. cbn [fst snd] in Hs.
  assert (Rm : foldM (online_event c y) (firstn (S m) evs) st0 = Ok s).
  { rewrite FS, foldM_app, Hs0. cbn [bind foldM]. unfold online_event at 1. cbn [fst snd]. rewrite Hs. reflexivity. }
  assert (LZ : (k < length (os_zl s0))%nat).
  { rewrite (run_zl c y _ _ _ Hs0). unfold st0. cbn [os_zl online_init]. rewrite map_length.
    unfold online_broadcast in Hs. apply bind_ok in Hs. destruct Hs as (nd' & Hnd & _). exact (proj2 (get_nth _ _ _ (mkNode 1 [] []) Hnd)). }
  assert (TS : to_send c k s0 t = Z.to_nat (p_L p)) by (unfold to_send; fold p; now rewrite Heff).
  destruct (broadcast_sends c y (2 * q) T k HN ltac:(lia) Hwh Hy t s0 s He ltac:(rewrite TS; lia) LZ Hs) as (_ & _ & HZ). cbv zeta in HZ. rewrite TS in HZ. fold e in HZ.
  destruct (in_force c y k st0 Hwh) with (evs := firstn (S m) evs) (r := s) as [_ D]; [| |exact Rm|].
  { unfold st0. cbn. unfold init_state. cbn. clear. revert k. induction (o_nodes c) as [|a l IH]; intros [|k]; cbn; auto. }
  { unfold st0. cbn. clear. revert k. induction (o_nodes c) as [|a l IH]; intros [|k]; cbn; auto. }
  assert (NE : forall m' x, (m' <= m)%nat -> nth_error evs m' = Some x -> nth_error (firstn (S m) evs) m' = Some x).
  { intros m' x Hm' Hx. rewrite <- (firstn_skipn (S m) evs) in Hx. rewrite nth_error_app1 in Hx by (rewrite firstn_length_le; lia). exact Hx. }
  assert (FI : forall m0, (m0 <= m)%nat -> firstn m0 (firstn (S m) evs) = firstn m0 evs).
  { intros m0 Hm0. rewrite firstn_firstn. f_equal. lia. }
  destruct D as [(D1 & D2 & D3)|(m0 & D1 & (m1 & t1 & M1 & M2 & M3) & D2 & D3)].
  - destruct (initial_taps c nsens ref T k (2 * q) HN ltac:(lia) Kn) as (I1 & I2 & I3). fold st0 in I1, I2, I3. rewrite <- D2 in I1, I2, I3. rewrite Nk in *.
    exists s, (fun ch j => if (Nat.eqb ch ref && (j =? 0)%Z)%bool then 1 else 0). split; [exact Rm|]. split.
    + rewrite (HZ I1 I2). apply map_ext. intros l. rewrite Z2Nat.id by lia. apply fused_ext. intros ch j Hch Hj. apply I3; assumption.
    + left. split; [|reflexivity]. intros m' t' Hm' E. apply (D3 m'). now apply NE.
  - specialize (D2 FU). unfold filter_from in D2.
    assert (Hm0 : (m0 <= m)%nat) by (assert (m0 < length (firstn (S m) evs))%nat by (apply nth_error_Some; congruence); rewrite firstn_length in *; lia).
    rewrite FI in D2 by exact Hm0. set (i := length (updates_of k (firstn m0 evs))) in *.
    destruct (dist_ok q (o_h c) (o_f c) (Z.to_nat (p_Ns p)) (o_ext c k i) Hq Hh Hf (proj2 (Hext i))) as (r0 & E0 & L0 & H0).
    unfold p in E0. rewrite D2 in E0. injection E0 as E0. rewrite (proj1 (Hext i)) in *.
    rewrite <- E0 in *.
    exists s, (taps (2 * q) (nth k (os_wir s) [])). split; [exact Rm|]. split.
    + assert (LW : length (nth k (os_wir s) []) = nS) by exact L0.
      assert (FW : Forall (fun w => length w = (2 * (2 * q) - 1)%nat) (nth k (os_wir s) [])).
      { apply Forall_forall. intros w Hw. apply In_nth with (d := []) in Hw. destruct Hw as (ch & Hch & <-). rewrite LW in Hch. destruct (H0 ch Hch) as (g & _ & L & _). exact L. }
      rewrite (HZ LW FW). apply map_ext. intros l. now rewrite Z2Nat.id by lia.
    + right. exists m0, (nth k (os_up s) 0%Z). split; [exact Hm0|]. split.
      { rewrite <- (firstn_skipn (S m) evs). rewrite nth_error_app1; [exact D1|]. apply nth_error_Some. congruence. }
      split. { exists m1, t1. split; [lia|]. split; [|exact M3]. rewrite <- (firstn_skipn (S m) evs). rewrite nth_error_app1; [exact M2|]. apply nth_error_Some. congruence. }
      split; [intros m' t' Hm' E; apply (D3 m'); [lia|apply NE; [lia|exact E]]|].
      intros ch Hch. destruct (H0 ch Hch) as (g & Hg & _ & HV). exists g. split; [exact Hg|]. intros j Hj. unfold taps. rewrite HV by lia. f_equal. lia.
Qed.

(** With external filters that select the reference sensor, its latest samples are sent,
    times the correlation of the windows at lag one over the hop (one before the first
    renewal of the filter). *)
Theorem C67_selecting_filters c y q T k sched nsens ref r m t :
  let p := o_p c in
  let nS := length (nth k y []) in
  let evs := flat_events sched in
  (0 < q)%nat -> p_N p = Z.of_nat (2 * q) -> length (o_h c) = (2 * q)%nat -> length (o_f c) = (2 * q)%nat ->
  p_whole p = false -> p_efficient p = false -> (0 <= p_L p <= p_N p)%Z ->
  Forall (fun col => length col = T) (nth k y []) -> (ref < nS)%nat -> nth_error nsens k = Some nS ->
  (o_nofuse c = false \/ nS <> 1%nat) ->
  (forall i, length (o_ext c k i) = nS /\ Forall (fun w => length w = (q + 1)%nat) (o_ext c k i) /\ selects q (o_ext c k i) ref) ->
  online_run c y sched (online_init 0 c nsens ref T) = Ok r ->
  nth_error evs m = Some (t, (k, Bc)) ->
  let e := (t / period (nth k (o_nodes c) (mkNode 1 [] [])))%Z in
  (0 <= e <= Z.of_nat T)%Z ->
  exists s gain, reached c y sched (online_init 0 c nsens ref T) (S m) = Ok s /\
    nth k (os_zl s) [] = map (fun l => gain * sample 0 (nth ref (nth k y []) []) (e - p_L p + Z.of_nat l)) (seq 0 (Z.to_nat (p_L p))) /\
    ((forall m' t', (m' <= m)%nat -> nth_error evs m' = Some (t', (k, Bc)) -> (Z.abs t' < o_every c)%Z) -> gain = 1) /\
    ((exists m' t', (m' <= m)%nat /\ nth_error evs m' = Some (t', (k, Bc)) /\ (o_every c <= Z.abs t')%Z) ->
       gain = window_corr (o_h c) (o_f c) 1 / INR (Z.to_nat (p_Ns p))).
Proof.
  intros p nS evs Hq HN Hh Hf Hwh Heff HL Hy Href Hns Hfu Hext Hrun Hm e He.
  destruct (C67_samples_sent c y q T k sched nsens ref r m t Hq HN Hh Hf Hwh Heff HL Hy Href Hns Hfu) as (s & v & Hs & Hz & HC); try assumption.
  { intros i. destruct (Hext i) as (? & ? & _). auto. }
  exists s. fold p e evs nS in Hz, HC. destruct HC as [[C1 C2]|(m0 & t0 & C1 & C2 & (m1 & t1 & M1 & M2 & M3) & C3 & C4)].
  - exists 1. split; [exact Hs|]. split; [|split; [reflexivity|]].
    + rewrite Hz. apply map_ext_in. intros l Hl. apply in_seq in Hl.
      rewrite (fused_ext y k (2 * q) v (fun ch j => if (Nat.eqb ch ref && (j =? 0)%Z)%bool then 1 else 0)) by (intros; apply C2).
      rewrite fused_delta by lia. ring.
    + intros (m' & t' & A & B & C). specialize (C1 m' t' A B). lia.
  - exists (window_corr (o_h c) (o_f c) 1 / INR (Z.to_nat (p_Ns p))). split; [exact Hs|]. split; [|split; [|reflexivity]].
    + rewrite Hz. apply map_ext_in. intros l Hl. apply in_seq in Hl.
      set (G := window_corr (o_h c) (o_f c) 1 / INR (Z.to_nat (p_Ns p))). set (n := (e - p_L p + Z.of_nat l)%Z).
      set (i := length (updates_of k (firstn m0 evs))) in *.
      assert (IMP : forall ch g, (ch < nS)%nat -> impulse q (nth ch (o_ext c k i) []) g -> forall j, (j < 2 * q)%nat -> g j = if (Nat.eqb ch ref && Nat.eqb j 0)%bool then 1 else 0).
      { intros ch g Hch Hg. apply (impulse_inj q _ g (fun j => if (Nat.eqb ch ref && Nat.eqb j 0)%bool then 1 else 0) Hq Hg). intros b Hb.
        destruct (Hext i) as (_ & _ & Hsel). rewrite (Hsel ch b Hb). unfold dft. destruct (Nat.eqb_spec ch ref); cbn [andb].
        - rewrite (csum_single (2 * q) _ 0%nat ltac:(lia)); [|intros j Hj Hne; destruct (Nat.eqb_spec j 0); [contradiction|apply cx_eq; cbn; ring]].
          rewrite Nat.eqb_refl. cbn [INR]. replace (- (2 * PI * INR b * 0 / INR (2 * q))) with 0 by (unfold Rdiv; ring).
          unfold real_at. destruct (_ || _)%bool; apply cx_eq; cbn; rewrite ?cos_0, ?sin_0; ring.
        - rewrite (csum_ext _ _ (fun _ => czero)) by (intros; apply cx_eq; cbn; ring). rewrite csum_0. unfold real_at. destruct (_ || _)%bool; apply cx_eq; cbn; ring. }
      transitivity (sumR nS (fun ch => if Nat.eqb ch ref then G * sample 0 (nth ref (nth k y []) []) n else 0)).
      * unfold fused_sample. apply sumR_ext. intros ch Hch. destruct (C4 ch Hch) as (g & Hg & Hv). specialize (IMP ch g Hch Hg).
        assert (PER : forall j, periodic (2 * q) g j = if (Nat.eqb ch ref && (j mod Z.of_nat (2 * q) =? 0)%Z)%bool then 1 else 0).
        { intros j. unfold periodic. pose proof (Z.mod_pos_bound j (Z.of_nat (2 * q)) ltac:(lia)). rewrite IMP by lia. destruct (Nat.eqb ch ref); cbn [andb]; [|reflexivity].
          destruct (Nat.eqb_spec (Z.to_nat (j mod Z.of_nat (2 * q))) 0); destruct (Z.eqb_spec (j mod Z.of_nat (2 * q)) 0); try reflexivity; lia. }
        destruct (Nat.eqb_spec ch ref) as [->|Hne].
        -- rewrite (sumR_window _ (2 * q) 1); [|lia|].
           ++ cbn [sumR]. rewrite Nat.add_0_r, Z.sub_diag, Z.sub_0_r, Rplus_0_l, Hv by lia. unfold response. rewrite PER, Z.mod_0_l by lia. cbn [andb Z.eqb].
              unfold known. destruct (Z.leb_spec (e - Z.of_nat (2 * q)) n); [|unfold n in *; lia]. destruct (Z.ltb_spec n e); [|unfold n in *; lia]. cbn [andb]. unfold G.
              change (0 + 1)%Z with 1%Z. ring.
           ++ intros x Hx Hox. cbv zeta. rewrite Hv by lia. unfold response. rewrite PER. cbn [andb].
              destruct (Z.eqb_spec ((Z.of_nat x - Z.of_nat (2 * q)) mod Z.of_nat (2 * q)) 0) as [E|E]; [|ring].
              unfold known. destruct (Z.ltb_spec (n - (Z.of_nat x - Z.of_nat (2 * q))) e) as [Hlt|Hge]; [|rewrite andb_false_r; ring].
              exfalso. apply Z.mod_divide in E; [|lia]. destruct E as [a Ha]. unfold n in Hlt.
              assert (a = -1)%Z by (assert (a < 1)%Z by nia; assert (a <> 0)%Z by (intros ->; lia); nia). subst a. lia.
        -- apply sumR_zero. intros x Hx. cbv zeta. rewrite Hv by lia. unfold response. rewrite PER. cbn [andb]. ring.
      * rewrite (sumR_window nS ref 1); [|lia|intros x Hx Hox; destruct (Nat.eqb_spec x ref); [lia|reflexivity]]. cbn [sumR]. rewrite Nat.add_0_r, Nat.eqb_refl. ring.
    + intros A. exfalso. specialize (A m1 t1 M1 M2). lia.
Qed.

(** This is not what processing whole frames does: for windows that overlap-add exactly to
    one, the samples are attenuated. *)
Theorem C67_unit_gain_refuted q g :
  (0 < q)%nat -> window RectNormNs (2 * q) (1 / 2) = Ok g ->
  (forall j, (j < q)%nat -> window_sum g g q 2 j = 1) /\ window_corr g g 0 / INR q = 1 /\ window_corr g g 1 / INR q = 1 - 1 / INR (2 * q).
Proof.
  intros Hq Hg. assert (Q : INR q <> 0) by (apply not_0_INR; lia). split.
  - intros j Hj. destruct (C66_rectangular_windows q 2 (1 / 2) _ g j Hj ltac:(lra) eq_refl Hg) as [_ E]. rewrite E. cbn. lra.
  - injection Hg as <-. unfold window_corr. rewrite repeat_length. fold (2 * q)%nat.
    assert (S2 : sqrt (1 / 2) * sqrt (1 / 2) = 1 / 2) by (apply sqrt_sqrt; lra).
    assert (V : forall i, (i < 2 * q)%nat -> nth i (repeat (1 * sqrt (1 / 2)) (2 * q)) 0 = sqrt (1 / 2)).
    { intros i Hi. rewrite (nth_indep _ 0 (1 * sqrt (1 / 2))) by (rewrite repeat_length; exact Hi). rewrite nth_repeat. ring. }
    assert (SC : forall n x, sumR n (fun _ => x) = INR n * x) by (intros n x; induction n as [|n IH]; cbn [sumR]; [cbn; ring|rewrite IH, S_INR; ring]).
    assert (SA : forall i d, (i < 2 * q)%nat -> sample 0 (repeat (1 * sqrt (1 / 2)) (2 * q)) (Z.of_nat i + Z.of_nat d) = if (i + d <? 2 * q)%nat then sqrt (1 / 2) else 0).
    { intros i d Hi. unfold sample. destruct (Z.ltb_spec (Z.of_nat i + Z.of_nat d) 0); [lia|]. replace (Z.to_nat (Z.of_nat i + Z.of_nat d)) with (i + d)%nat by lia.
      destruct (Nat.ltb_spec (i + d) (2 * q)); [now apply V|]. apply nth_overflow. rewrite repeat_length. lia. }
    split.
    + rewrite (sumR_ext _ _ (fun _ => 1 / 2)).
      * rewrite SC, mult_INR. cbn [INR]. field. exact Q.
      * intros i Hi. rewrite V by exact Hi. rewrite (SA i 0%nat Hi : sample 0 _ (Z.of_nat i + 0) = _). destruct (Nat.ltb_spec (i + 0) (2 * q)); [exact S2|lia].
    + replace (2 * q)%nat with (S (2 * q - 1)) at 1 by lia. cbn [sumR]. rewrite (sumR_ext _ _ (fun _ => 1 / 2)).
      * rewrite (SA (2 * q - 1)%nat 1%nat ltac:(lia) : sample 0 _ (Z.of_nat (2 * q - 1) + 1) = _).
        destruct (Nat.ltb_spec (2 * q - 1 + 1) (2 * q)); [lia|]. rewrite SC, minus_INR, mult_INR by lia. cbn [INR]. field. exact Q.
      * intros i Hi. rewrite V by lia. rewrite (SA i 1%nat ltac:(lia) : sample 0 _ (Z.of_nat i + 1) = _). destruct (Nat.ltb_spec (i + 1) (2 * q)); [exact S2|lia].
Qed.

(** Two nodes, blocks of two samples, one sample per broadcast, filter renewed every two
    samples: node 0 first sends its first sample, later attenuated ones. *)
Definition c67_cfg : ocfg :=
  mkO (mkP 2 1 1 false false false false false 0 0) [mkNode 1 [0; 1; 2; 3; 4]%Z [1%nat]; mkNode 1 [0; 1; 2; 3; 4]%Z [0%nat]]
      [1; 1] [/ 2; / 2] true false false 2 false
      (fun k i => [[cone; cone]]) (fun k i => [[cr (INR i); cr 1]; [cr 2; cr (INR k)]]) (fun k i => [[cr 1; cr 1]])
      (fun k i => [0]).
Example C67_ex : exists r s s',
  let y := [[[1; 2; 3; 4]]; [[5; 6; 7; 8]]] in
  let st0 := online_init 0 c67_cfg [1; 1]%nat 0 4 in
  online_run c67_cfg y ex_sched st0 = Ok r /\
  reached c67_cfg y ex_sched st0 1 = Ok s /\ nth 0 (os_zl s) [] = [1 * 1] /\
  reached c67_cfg y ex_sched st0 7 = Ok s' /\ nth 0 (os_zl s') [] = [(0 + / 2 * 1 + / 2 * 0) / 1 * 3].
Proof.
  set (y := [[[1; 2; 3; 4]]; [[5; 6; 7; 8]]]). set (st0 := online_init 0 c67_cfg [1; 1]%nat 0 4).
  assert (RUN : exists r, online_run c67_cfg y ex_sched st0 = Ok r).
  { match goal with |- exists r, ?x = Ok r => assert (E : match x with Ok _ => true | Err _ => false end = true); [|destruct x as [r|]; [now exists r|discriminate]] end. reflexivity. }
  destruct RUN as [r Hr].
  assert (H : forall m t, nth_error (flat_events ex_sched) m = Some (t, (0%nat, Bc)) -> (0 <= t <= 4)%Z ->
    exists s gain, reached c67_cfg y ex_sched st0 (S m) = Ok s /\ nth 0 (os_zl s) [] = [gain * sample 0 [1; 2; 3; 4] (t - 1 + 0)] /\
    ((forall m' t', (m' <= m)%nat -> nth_error (flat_events ex_sched) m' = Some (t', (0%nat, Bc)) -> (Z.abs t' < 2)%Z) -> gain = 1) /\
    ((exists m' t', (m' <= m)%nat /\ nth_error (flat_events ex_sched) m' = Some (t', (0%nat, Bc)) /\ (2 <= Z.abs t')%Z) -> gain = window_corr [1; 1] [/ 2; / 2] 1 / INR 1)).
  { intros m t Hm Ht. assert (E1 : (t / 1 = t)%Z) by apply Z.div_1_r.
    destruct (C67_selecting_filters c67_cfg y 1 4 0 ex_sched [1; 1]%nat 0 r m t) as (s & g & A); try reflexivity; try assumption; cbn [length y nth]; try lia.
    - split; discriminate.
    - repeat constructor.
    - now left.
    - intros i. split; [reflexivity|]. split; [repeat constructor|]. intros [|[|ch]] [|[|b]] Hb; try reflexivity; lia.
    - cbn [nth o_nodes c67_cfg period]. rewrite E1. lia.
    - cbn [nth o_nodes c67_cfg period p_L o_p] in A. rewrite E1 in A. exists s, g. exact A. }
  destruct (H 0%nat 1%Z eq_refl ltac:(lia)) as (s & g & A1 & A2 & A3 & _). destruct (H 6%nat 3%Z eq_refl ltac:(lia)) as (s' & g' & B1 & B2 & _ & B3).
  exists r, s, s'. split; [exact Hr|]. split; [exact A1|]. split; [|split; [exact B1|]].
  - rewrite A2, A3; [reflexivity|]. intros [|m'] t' Hm' E; [|lia]. injection E as <-. lia.
  - rewrite B2, B3; [reflexivity|]. exists 6%nat, 3%Z. split; [lia|]. split; [reflexivity|lia].
Qed.

Print Assumptions C67_time_domain_filter.
Print Assumptions C67_samples_sent.
Print Assumptions C67_selecting_filters.
Print Assumptions C67_unit_gain_refuted.
