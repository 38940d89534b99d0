(** Property C69: complete runs in which the nodes estimate their filters.
    Vocabulary: FullSpec.v, OnlineSpec.v, OutSpec.v, FiltSpec.v, ScmSpec.v; the run is
    modelled in Full.v. *)
From Verif Require Import Base BaseFacts Sched SchedSpec InstSpec Buffers BufFacts ChunkSpec Cx CxFacts Wola Dist Online OnlineSpec OnlineProps OutSpec OutFacts2 SchedProps BatchSigEx LatestSpec LatestProps SigGen Filt FiltSpec FiltFacts FiltProps Scm ScmSpec ScmProps Ext Full FullSpec FullFacts FullFacts2 FullFacts3 FullFacts4 FullFacts5 FullFacts6 SroSpec FullFacts7.
From Coq Require Import Reals Lra.
Local Open Scope R_scope.

(** ** C69 *)
(** A finished run, repeated with its own filters given in advance, goes through the same
    states: after any number of events the signals, buffers and outputs are the same. *)
Theorem C69_replay c y sched nsens ref T slots a0 a :
  starts c nsens ref T slots a0 -> full_run c y sched a0 = Ok a ->
  forall m, exists am, full_reached c y sched a0 m = Ok am /\
    reached (replay c y a) y sched (online_init 0 (replay c y a) nsens ref T) m = Ok (a_s am).
Proof. exact (full_replay c y sched nsens ref T slots a0 a). Qed.
(** The settings of that run are the given ones, the filters of iteration [i] being those
    found at the nodes for [i] at the end of the run. *)
Theorem C69_replay_settings c y a k n x e : nth_error (a_f a) k = Some n -> nth_error (a_x a) k = Some x -> fn_local n = Some e ->
  let o := ac_o c in let r := replay c y a in
  let m := length (nth k y []) in
  let nb := (Z.to_nat (p_N (o_p o)) / 2 + 1)%nat in
  (o_p r = o_p o /\ o_nodes r = o_nodes o /\ o_h r = o_h o /\ o_f r = o_f o /\ o_wola r = o_wola o /\ o_comp r = o_comp o /\
   o_fsd r = o_fsd o /\ o_every r = o_every o /\ o_nofuse r = o_nofuse o /\ o_est r = o_est o) /\
  forall i w, (nth_error (x_ext x) i = Some w -> laid_out m nb w (o_ext r k i)) /\
    (nth_error (e_w (fn_danse n)) i = Some w -> laid_out (m + length (nbrs (nth k (o_nodes o) (mkNode 1 [] [])))) nb w (o_int r k i)) /\
    (nth_error (e_w e) i = Some w -> laid_out m nb w (o_loc r k i)).
Proof. exact (full_replay_settings c y a k n x e). Qed.
Corollary C69_replay_run c y sched nsens ref T slots a0 a :
  starts c nsens ref T slots a0 -> full_run c y sched a0 = Ok a ->
  online_run (replay c y a) y sched (online_init 0 (replay c y a) nsens ref T) = Ok (a_s a).
Proof.
  intros Hs H. destruct (C69_replay c y sched nsens ref T slots a0 a Hs H (length (marked_events sched))) as (am & H1 & H2).
  unfold full_reached in H1. rewrite firstn_all in H1. unfold full_run in H. rewrite H in H1. injection H1 as <-.
  unfold reached in H2. rewrite <- (map_length fst), marked_fst, firstn_all in H2. exact H2.
Qed.

(** Hence the outputs of the run are the sums of those for the two components of the
    mixture (few-samples broadcasting), as computed for the evaluation of the
    improvement in signal-to-noise ratio: both runs with the filters given finish. *)
Theorem C69_components c y s n sched nsens ref T slots a0 a :
  p_whole (o_p (ac_o c)) = false -> mixture y s n ->
  starts c nsens ref T slots a0 -> full_run c y sched a0 = Ok a ->
  exists rs rn,
    online_run (replay c y a) s sched (online_init 0 (replay c y a) nsens ref T) = Ok rs /\
    online_run (replay c y a) n sched (online_init 0 (replay c y a) nsens ref T) = Ok rn /\
    outputs_add (os_d (a_s a)) (os_d rs) (os_d rn) /\ outputs_add (os_dl (a_s a)) (os_dl rs) (os_dl rn).
Proof.
  intros Hw Hm Hs H. pose proof (C69_replay_run c y sched nsens ref T slots a0 a Hs H) as E.
  destruct (C30_few_samples (replay c y a) y s n sched nsens ref T Hw Hm) as [(e & E1 & _)|(ry & rs & rn & E1 & E2 & E3 & E4 & E5)]; [congruence|].
  rewrite E in E1. injection E1 as <-. exists rs, rn. auto.
Qed.

(** After any number of events, matrices and filters of a node are those that its own
    observations give, one step of the update rules (C25, C26, C28, C29, C61) for each of
    its update events; its external filters follow its internal ones. *)
Theorem C69_estimates c y sched nsens ref T slots a0 k m a n0 x0 :
  starts c nsens ref T slots a0 -> full_reached c y sched a0 m = Ok a ->
  nth_error (a_f a0) k = Some n0 -> nth_error (a_x a0) k = Some x0 ->
  let us := observations c y sched a0 k m in
  exists n x, nth_error (a_f a) k = Some n /\ nth_error (a_x a) k = Some x /\
    filt_run outer (avg (ac_beta c k)) (ac_valid c) (ac_solve c) (ac_p c) us n0 = Ok n /\ fn_i n = length us /\
    ext_run (ac_x c k) (map (fun ju => (nth (S (fst ju)) (e_w (fn_danse n)) no_coefs, Some (IZR (u_t (snd ju))))) (combine (seq 0 (length us)) us)) x0 = Ok x.
Proof. exact (full_estimates c y sched nsens ref T slots a0 k m a n0 x0). Qed.

(** What is observed at an update event (no compensation of offsets): the spectra of the
    latest frames of the sensors of the node and of the frames received from its
    neighbours (for what these contain see C68); the local estimator sees the former. *)
Theorem C69_observations c y sched nsens ref T slots a0 k m t byp a a' q :
  wola_setting (ac_o c) q -> o_comp (ac_o c) = false -> Forall (fun col => length col = T) (nth k y []) ->
  starts c nsens ref T slots a0 ->
  nth_error (marked_events sched) m = Some ((t, (k, Up)), Some byp) -> (0 <= frame_end (ac_o c) k t <= Z.of_nat T)%Z ->
  full_reached c y sched a0 m = Ok a -> full_reached c y sched a0 (S m) = Ok a' ->
  let z := nth k (b_z (os_b (a_s a'))) [] in
  let nS := length (nth k y []) in
  let i := length (observations c y sched a0 k m) in
  let spec := spectrum (2 * q) (Z.to_nat (p_Ns (o_p (ac_o c)))) (o_h (ac_o c)) in
  exists u, observations c y sched a0 k (S m) = observations c y sched a0 k m ++ [u] /\
    u_t u = t /\ u_bypass u = byp /\ u_skip u = false /\
    (exists vk, nth_error (ac_vad c) k = Some vk /\ nth_error vk i = Some (u_vad u)) /\
    fst (u_y u) = (nS + length z)%nat /\ fst (u_yl u) = nS /\
    (forall f ch, (f <= q)%nat -> (ch < nS + length z)%nat -> snd (u_y u) f ch = spec (frame_with y z k (2 * q) (frame_end (ac_o c) k t) ch) f) /\
    (forall f ch, (f <= q)%nat -> (ch < nS)%nat -> snd (u_yl u) f ch = spec (frame_of y k (2 * q) (frame_end (ac_o c) k t) ch) f).
Proof. exact (full_observations c y sched nsens ref T slots a0 k m t byp a a' q). Qed.

(** With compensation of offsets the DANSE estimator observes these spectra delayed by the
    accumulated phase shifts of the channels, to which the full-sample drifts just found
    have been added if they are included; the local estimator observes them as they are. *)
Theorem C69_compensated_observations c y sched a0 T k m t byp a a' q :
  wola_setting (ac_o c) q -> o_comp (ac_o c) = true -> Forall (fun col => length col = T) (nth k y []) ->
  nth_error (marked_events sched) m = Some ((t, (k, Up)), Some byp) -> (0 <= frame_end (ac_o c) k t <= Z.of_nat T)%Z ->
  full_reached c y sched a0 m = Ok a -> full_reached c y sched a0 (S m) = Ok a' ->
  let z := nth k (b_z (os_b (a_s a'))) [] in
  let nS := length (nth k y []) in
  let spec := spectrum (2 * q) (Z.to_nat (p_Ns (o_p (ac_o c)))) (o_h (ac_o c)) in
  let psf := nth k (os_psf (a_s a)) [] in
  let row := snd (List.last (b_log (os_b (a_s a'))) (k, [])) in
  length psf = (nS + length z)%nat ->
  exists u, observations c y sched a0 k (S m) = observations c y sched a0 k m ++ [u] /\
    (forall f ch, (f <= q)%nat -> (ch < nS + length z)%nat ->
       snd (u_y u) f ch = delayed (2 * q) f (nth ch psf 0 + (if o_fsd (ac_o c) && (nS <=? ch)%nat then IZR (nth (ch - nS) row 0%Z) else 0))
         (spec (frame_with y z k (2 * q) (frame_end (ac_o c) k t) ch) f)) /\
    (forall f ch, (f <= q)%nat -> (ch < nS)%nat -> snd (u_yl u) f ch = spec (frame_of y k (2 * q) (frame_end (ac_o c) k t) ch) f).
Proof. exact (full_compensated c y sched a0 T k m t byp a a' q). Qed.

(** A broadcast compresses with the external filter of the current iteration of the node and
    leaves matrices and filters alone. *)
Theorem C69_broadcasts c y sched nsens ref T slots a0 k m t b a a' x w l :
  starts c nsens ref T slots a0 -> nth_error (marked_events sched) m = Some ((t, (k, Bc)), b) ->
  full_reached c y sched a0 m = Ok a -> full_reached c y sched a0 (S m) = Ok a' ->
  nth_error (a_x a) k = Some x -> nth_error (x_ext x) (x_i x) = Some w ->
  laid_out (length (nth k y [])) (Z.to_nat (p_N (o_p (ac_o c))) / 2 + 1) w l ->
  online_broadcast (with_ext (ac_o c) l) y t k (a_s a) = Ok (a_s a') /\ a_f a' = a_f a /\ a_x a' = a_x a.
Proof. exact (full_broadcasts_laid c y sched nsens ref T slots a0 k m t b a a' x w l). Qed.

(** So, after any number of events, the two matrices of a node are the exponentially
    weighted averages of the correlations of the frames it has observed with and without
    speech (without [use1stFrameAsBasis])... *)
Theorem C69_matrices c y sched nsens ref T slots a0 k m a n0 wh e0 :
  starts c nsens ref T slots a0 -> full_reached c y sched a0 m = Ok a ->
  nth_error (a_f a0) k = Some n0 -> estimator wh n0 = Some e0 -> f_use1st (ac_p c) = false ->
  let us := observations c y sched a0 k m in
  exists n e, nth_error (a_f a) k = Some n /\ estimator wh n = Some e /\
    forall f i j, e_ryy e f i j = weighted (ac_beta c k) (e_ryy e0) (pick wh true us) f i j /\
                  e_rnn e f i j = weighted (ac_beta c k) (e_rnn e0) (pick wh false us) f i j.
Proof. exact (full_matrices c y sched nsens ref T slots a0 k m a n0 wh e0). Qed.

(** ...and the filter with which the output for a frame is computed is the one its
    matrices give at that event, or the previous one; it remains that of the iteration
    until the end of the run. *)
Theorem C69_filters c y sched nsens ref T slots a0 k m t byp a1 a2 a n1 wh e1 :
  starts c nsens ref T slots a0 -> full_run c y sched a0 = Ok a ->
  nth_error (marked_events sched) m = Some ((t, (k, Up)), Some byp) ->
  full_reached c y sched a0 m = Ok a1 -> full_reached c y sched a0 (S m) = Ok a2 ->
  nth_error (a_f a1) k = Some n1 -> estimator wh n1 = Some e1 -> wh = Danse \/ wh = Local ->
  exists n2 e2, nth_error (a_f a2) k = Some n2 /\ estimator wh n2 = Some e2 /\
    let i := fn_i n1 in
    (updated wh n1 n2 -> nth_error (e_w e2) (S i) = Some (ac_solve c (e_dim e1) (e_ryy e2) (e_rnn e2))) /\
    (~ updated wh n1 n2 -> nth_error (e_w e2) (S i) = nth_error (e_w e1) i) /\
    forall j w, (j <= S i)%nat -> nth_error (e_w e2) j = Some w -> filter_of wh a k j = w.
Proof. exact (full_filters c y sched nsens ref T slots a0 k m t byp a1 a2 a n1 wh e1). Qed.

(** With the formula of the multichannel Wiener filter: the filter used at an event at
    which it is updated solves the normal equations of the averaged correlations of all
    the frames that the node has observed so far, the present one included. *)
Theorem C69_optimal c y sched nsens ref T slots a0 k m t byp a1 a2 a n0 n1 n2 wh e0 inv r f :
  starts c nsens ref T slots a0 -> full_run c y sched a0 = Ok a ->
  nth_error (marked_events sched) m = Some ((t, (k, Up)), Some byp) ->
  full_reached c y sched a0 m = Ok a1 -> full_reached c y sched a0 (S m) = Ok a2 ->
  nth_error (a_f a0) k = Some n0 -> nth_error (a_f a1) k = Some n1 -> nth_error (a_f a2) k = Some n2 ->
  estimator wh n0 = Some e0 -> wh = Danse \/ wh = Local -> updated wh n1 n2 ->
  f_use1st (ac_p c) = false -> (r < e_dim e0)%nat ->
  (forall n ryy rnn f, ac_solve c n ryy rnn f = update_w n r (inv n (ryy f)) (ryy f) (rnn f)) ->
  let us := observations c y sched a0 k (S m) in
  let Ry := weighted (ac_beta c k) (e_ryy e0) (pick wh true us) f in
  let Rn := weighted (ac_beta c k) (e_rnn e0) (pick wh false us) f in
  inverts inv (e_dim e0) Ry ->
  solves (e_dim e0) Ry (filter_of wh a k (length us) f) (fun j => Ry j r - Rn j r)%cx.
Proof. exact (full_optimal c y sched nsens ref T slots a0 k m t byp a1 a2 a n0 n1 n2 wh e0 inv r f). Qed.

(** Synchronous nodes, symmetric neighbourhoods, arrays of the allocated sizes and frame
    decisions from sample-wise ones: the run finishes, whatever the signals, the validity
    checks and the filter formula. *)
Theorem C69_completes tsort c y nsens q T ref ordering_of per prop slots a0 :
  let p := o_p (ac_o c) in
  is_argsort tsort -> regular (ac_o c) per T -> consistent (ac_o c) y nsens q T ->
  (p_whole p = true -> p_N p = 2 * p_Ns p)%Z -> (2 * q <= T)%nat ->
  Z.of_nat slots = (alloc_iters (Z.of_nat T) (p_N p) (p_Ns p) + 1)%Z ->
  (forall k, (k < length (o_nodes (ac_o c)))%nat ->
     exists vad vk, length vad = T /\ vad_per_frame (2 * q) (Z.to_nat (p_Ns p)) prop vad = Ok vk /\ nth_error (ac_vad c) k = Some vk) ->
  starts c nsens ref T slots a0 ->
  exists sched a, initialize_events tsort p (o_nodes (ac_o c)) ordering_of = Ok (sched, []) /\ full_run c y sched a0 = Ok a.
Proof. exact (full_completes tsort c y nsens q T ref ordering_of per prop slots a0). Qed.

(** The two nodes of C68, estimating their filters: single-sensor nodes that hear each
    other, matrices started from unit matrices (as after batch initialisation, so that
    filters are updated from the first frame on), filters from selection of the own
    sensor, 2 x 2 matrices inverted by Cramer's rule. *)
Definition c69_vad : list bool := [true; true; false; true; true; false].
Definition c69_cfg : acfg :=
  mkAC c68_cfg (mkF true 0 false false) (fun _ => / 2) (fun _ _ _ => true)
       (fun n ryy rnn f => update_w n 0 (inv2 n (ryy f)) (ryy f) (rnn f))
       (fun _ => mkX false 0 false true 0 0 0)
       (repeat [true; false; false; true; false; false] 2).
Definition c69_sel : coefs := fun _ c => if Nat.eqb c 0 then cone else czero.
Definition c69_node : fnode tens coefs :=
  fnode_init (est_init (fun _ => ident) c69_sel 6 2) (Some (est_init (fun _ => ident) c69_sel 6 1)) None None.
Definition c69_start : astate :=
  mkAS (online_init 0 c68_cfg [1; 1]%nat 0 6) [c69_node; c69_node] (repeat (mkXS 0 (repeat c69_sel 6) c69_sel 0) 2).
Lemma c69_starts : starts c69_cfg [1; 1]%nat 0 6 6 c69_start.
Proof.
  constructor; [reflexivity | split; reflexivity | |].
  - intros k n Hk. assert (n = c69_node) as -> by (apply nth_error_In in Hk; destruct Hk as [<-|[<-|[]]]; reflexivity). clear k Hk.
    split; [|split; [reflexivity|split; [eexists; split; reflexivity|split; reflexivity]]].
    split; [reflexivity|]. split; [reflexivity|]. split; [reflexivity|].
    intros wh e He. assert (Hin : forall w, In w (repeat c69_sel 6) -> w = c69_sel) by (intros w Hw; exact (repeat_spec _ _ _ Hw)).
    destruct wh; cbn in He; try discriminate; injection He as <-; (split; [reflexivity|]); (split; [reflexivity|]); exists c69_sel; exact Hin.
  - intros k x Hk. assert (x = mkXS 0 (repeat c69_sel 6) c69_sel 0) as -> by (apply nth_error_In, repeat_spec in Hk; exact Hk). split; reflexivity.
Qed.
Definition c69_sched : list instant :=
  match initialize_events tsort0 (o_p c68_cfg) (o_nodes c68_cfg) (fun _ => []) with Ok (s, _) => s | Err _ => [] end.
Example C69_ex_completes : exists a, full_run c69_cfg c68_y c69_sched c69_start = Ok a.
Proof.
  destruct (C69_completes tsort0 c69_cfg c68_y [1; 1]%nat 1 6 0 (fun _ => []) 1 (QArith_base.inject_Z 1) 6 c69_start tsort0_ok c68_regular c68_consistent) as (sched & a & E & H).
  - discriminate.
  - lia.
  - reflexivity.
  - intros k Hk. exists c69_vad, [true; false; false; true; false; false]. split; [reflexivity|]. split; [reflexivity|].
    destruct k as [|[|k]]; [reflexivity|reflexivity|cbn in Hk; lia].
  - exact c69_starts.
  - exists a. unfold c69_sched. change (o_p c68_cfg) with (o_p (ac_o c69_cfg)). change (o_nodes c68_cfg) with (o_nodes (ac_o c69_cfg)). rewrite E. exact H.
Qed.
(** The run can be repeated with its own filters... *)
Example C69_ex_replay : exists a, full_run c69_cfg c68_y c69_sched c69_start = Ok a /\
  online_run (replay c69_cfg c68_y a) c68_y c69_sched (online_init 0 (replay c69_cfg c68_y a) [1; 1]%nat 0 6) = Ok (a_s a).
Proof. destruct C69_ex_completes as (a & H). exists a. split; [exact H|]. exact (C69_replay_run _ _ _ _ _ _ _ _ _ c69_starts H). Qed.
(** ...and the filter of node 0 for its first frame is the optimal one for the correlation
    of the first frame, of its own signal and of what it has received, with the weights
    one half. *)
Example C69_ex_optimal : exists a (y0 : vec), full_run c69_cfg c68_y c69_sched c69_start = Ok a /\
  y0 0%nat = spectrum 2 1 [1; 1] (frame_of c68_y 0 2 2 0) 0 /\
  let Ry : mat := fun i j => (cr (/ 2) * ident i j + cr (/ 4) * (y0 i * conj (y0 j)))%cx in
  solves 2 Ry (filter_of Danse a 0 1 0%nat) (fun j => Ry j 0%nat - ident j 0%nat)%cx.
Proof.
  destruct C69_ex_completes as (a & H). exists a.
  assert (Hpre : forall m, exists am, full_reached c69_cfg c68_y c69_sched c69_start m = Ok am).
  { intros m. destruct (C69_replay _ _ _ _ _ _ _ _ _ c69_starts H m) as (am & E & _). eauto. }
  destruct (Hpre 4%nat) as (a1 & H1). destruct (Hpre 5%nat) as (a2 & H2).
  assert (Hm : nth_error (marked_events c69_sched) 4 = Some ((2%Z, (0%nat, Up)), Some false)) by reflexivity.
  destruct (C69_observations c69_cfg c68_y c69_sched [1; 1]%nat 0 6 6 c69_start 0 4 2 false a1 a2 1) as (u & Eo & _ & _ & _ & (vk & Ev & Ev') & D & _ & O & _).
  - split; [lia|]. repeat split; try reflexivity; lia.
  - reflexivity.
  - repeat constructor.
  - exact c69_starts.
  - exact Hm.
  - split; [|]; vm_compute; discriminate.
  - exact H1.
  - exact H2.
  - change (observations c69_cfg c68_y c69_sched c69_start 0 4) with (@nil (uevent obs)) in *. cbn [app] in Eo.
    injection Ev as <-. injection Ev' as Ev'.
    assert (Z : match full_reached c69_cfg c68_y c69_sched c69_start 5 with Ok b => length (nth 0 (b_z (os_b (a_s b))) []) | Err _ => 0%nat end = 1%nat) by reflexivity.
    rewrite H2 in Z. rewrite Z in D, O. change (length (nth 0 c68_y [])) with 1%nat in D, O. cbn [Nat.add] in D, O.
    assert (Up1 : match full_reached c69_cfg c68_y c69_sched c69_start 4 with
                  | Ok b => match nth_error (a_f b) 0 with Some n => Some (e_ups (fn_danse n)) | None => None end | Err _ => None end = Some 0%nat) by reflexivity.
    assert (Up2 : match full_reached c69_cfg c68_y c69_sched c69_start 5 with
                  | Ok b => match nth_error (a_f b) 0 with Some n => Some (e_ups (fn_danse n)) | None => None end | Err _ => None end = Some 1%nat) by reflexivity.
    rewrite H1 in Up1. rewrite H2 in Up2.
    destruct (nth_error (a_f a1) 0) as [n1|] eqn:N1; [|discriminate]. destruct (nth_error (a_f a2) 0) as [n2|] eqn:N2; [|discriminate].
    injection Up1 as Up1. injection Up2 as Up2.
    exists (fun ch => snd (u_y u) 0%nat ch). split; [exact H|].
    split; [rewrite O by lia; reflexivity|]. intros Ry.
    assert (Er : forall i j, weighted (/ 2) (fun _ => ident) [u_y u] 0%nat i j = Ry i j).
    { intros i j. unfold weighted, Ry, corr. cbn [length csum nth Nat.sub pow]. rewrite D. apply cx_eq; cbn -[ident]; field. }
    assert (En : forall i j, weighted (/ 2) (fun _ => ident) [] 0%nat i j = ident i j).
    { intros i j. unfold weighted. cbn [length csum pow]. apply cx_eq; cbn -[ident]; ring. }
    assert (P1 : pick Danse true [u] = [u_y u]) by (unfold pick; cbn [filter vad]; rewrite <- Ev'; reflexivity).
    assert (P2 : pick Danse false [u] = []) by (unfold pick; cbn [filter vad]; rewrite <- Ev'; reflexivity).
    pose proof (C69_optimal c69_cfg c68_y c69_sched [1; 1]%nat 0 6 6 c69_start 0 4 2 false a1 a2 a c69_node n1 n2 Danse (fn_danse c69_node) inv2 0 0
      c69_starts H Hm H1 H2 eq_refl N1 N2 eq_refl (or_introl eq_refl)) as Opt.
    rewrite Eo in Opt. cbv zeta in Opt. rewrite P1, P2 in Opt.
    change (e_dim (fn_danse c69_node)) with 2%nat in Opt. change (e_ryy (fn_danse c69_node)) with (fun _ : nat => ident) in Opt. change (e_rnn (fn_danse c69_node)) with (fun _ : nat => ident) in Opt.
    change (ac_beta c69_cfg 0) with (/ 2) in Opt. cbn [length] in Opt.
    assert (S : solves 2 (weighted (/ 2) (fun _ => ident) [u_y u] 0%nat) (filter_of Danse a 0 1 0%nat)
      (fun j => weighted (/ 2) (fun _ => ident) [u_y u] 0%nat j 0%nat - weighted (/ 2) (fun _ => ident) [] 0%nat j 0%nat)%cx).
    { apply Opt; clear Opt; [exists (fn_danse n1), (fn_danse n2); repeat split; lia | reflexivity | lia | reflexivity |].
      intros A EA. apply inv2_ok. unfold det2. rewrite !EA, !Er. unfold Ry, ident. cbn [Nat.eqb].
      set (p := snd (u_y u) 0%nat 0%nat). set (q := snd (u_y u) 0%nat 1%nat). intros K. apply (f_equal re) in K. destruct p as [p1 p2], q as [q1 q2]. cbn in K.
      assert (/ 4 + / 8 * (p1 * p1 + p2 * p2 + (q1 * q1 + q2 * q2)) = 0) by (rewrite <- K at 1; field). nra. }
    intros i Hi. specialize (S i Hi). cbv beta in S. rewrite En, Er in S. rewrite <- S. apply csum_ext. intros j _. now rewrite Er.
Qed.
(** The same nodes with compensation of offsets, estimates of 1/100 for the neighbour: the
    second frame of node 0, its own channel as it is, that of the neighbour delayed by what
    the first iteration has left, -1/100 of a sample. *)
Definition c69_comp : acfg :=
  let o := c68_cfg in
  mkAC (mkO (o_p o) (o_nodes o) (o_h o) (o_f o) (o_wola o) true true (o_every o) (o_nofuse o) (o_ext o) (o_int o) (o_loc o) (fun _ _ => [/ 100]))
       (ac_p c69_cfg) (ac_beta c69_cfg) (ac_valid c69_cfg) (ac_solve c69_cfg) (ac_x c69_cfg) (ac_vad c69_cfg).
Example C69_ex_compensated : exists a a' us (u : uevent obs),
  full_reached c69_comp c68_y c69_sched c69_start 8 = Ok a /\ full_reached c69_comp c68_y c69_sched c69_start 9 = Ok a' /\
  observations c69_comp c68_y c69_sched c69_start 0 9 = us ++ [u] /\
  snd (u_y u) 1%nat 0%nat = spectrum 2 1 [1; 1] (frame_of c68_y 0 2 3 0) 1 /\
  snd (u_y u) 1%nat 1%nat = delayed 2 1 (- / 100) (spectrum 2 1 [1; 1] (fun m => nth m (nth 0 (nth 0 (b_z (os_b (a_s a'))) []) []) 0) 1).
Proof.
  destruct (full_reached c69_comp c68_y c69_sched c69_start 8) as [a|] eqn:H1;
    [|assert (X : match full_reached c69_comp c68_y c69_sched c69_start 8 with Ok _ => true | Err _ => false end = true) by reflexivity; rewrite H1 in X; discriminate].
  destruct (full_reached c69_comp c68_y c69_sched c69_start 9) as [a'|] eqn:H2;
    [|assert (X : match full_reached c69_comp c68_y c69_sched c69_start 9 with Ok _ => true | Err _ => false end = true) by reflexivity; rewrite H2 in X; discriminate].
  assert (P : match full_reached c69_comp c68_y c69_sched c69_start 8 with Ok b => nth 0 (os_psf (a_s b)) [] | Err _ => [] end = [0 + 0; 0 + 0 - / 100 * 1]) by reflexivity. rewrite H1 in P.
  assert (Z : match full_reached c69_comp c68_y c69_sched c69_start 9 with Ok b => (length (nth 0 (b_z (os_b (a_s b))) []), snd (List.last (b_log (os_b (a_s b))) (0%nat, []))) | Err _ => (0%nat, []) end = (1%nat, [0%Z])) by reflexivity.
  rewrite H2 in Z. injection Z as Z1 Z2.
  destruct (C69_compensated_observations c69_comp c68_y c69_sched c69_start 6 0 8 3 false a a' 1) as (u & E & D & _).
  - split; [lia|]. repeat split; try reflexivity; lia.
  - reflexivity.
  - repeat constructor.
  - reflexivity.
  - split; vm_compute; discriminate.
  - exact H1.
  - exact H2.
  - rewrite P, Z1. reflexivity.
  - exists a, a', (observations c69_comp c68_y c69_sched c69_start 0 8), u. split; [reflexivity|]. split; [reflexivity|]. split; [exact E|].
    rewrite P, Z1, Z2 in D. change (length (nth 0 c68_y [])) with 1%nat in D.
    split.
    + rewrite (D 1%nat 0%nat) by lia. unfold delayed. cbn [nth Nat.leb]. rewrite andb_false_r.
      match goal with |- (?s * cis ?x)%cx = _ => replace x with 0 by (change (INR 1) with 1; field; apply not_0_INR; lia) end. rewrite cis_0.
      change (spectrum (2 * 1) (Z.to_nat (p_Ns (o_p (ac_o c69_comp)))) (o_h (ac_o c69_comp)) (frame_with c68_y (nth 0 (b_z (os_b (a_s a'))) []) 0 (2 * 1) (frame_end (ac_o c69_comp) 0 3) 0) 1)
        with (spectrum 2 1 [1; 1] (frame_of c68_y 0 2 3 0) 1). apply cx_eq; cbn [re im cmul]; change (re cone) with 1; change (im cone) with 0; ring.
    + rewrite (D 1%nat 1%nat) by lia. cbn [nth Nat.leb Nat.sub]. unfold o_fsd at 1. cbn [ac_o c69_comp andb].
      replace (0 + 0 - / 100 * 1 + 0) with (- / 100) by ring. reflexivity.
Qed.
(** The broadcast of node 0 before it: with the external filter of its first iteration. *)
Example C69_ex_broadcast : exists a a' x w,
  full_reached c69_cfg c68_y c69_sched c69_start 6 = Ok a /\ full_reached c69_cfg c68_y c69_sched c69_start 7 = Ok a' /\
  nth_error (a_x a) 0 = Some x /\ nth_error (x_ext x) 1 = Some w /\
  online_broadcast (with_ext c68_cfg [[w 0%nat 0%nat; w 1%nat 0%nat]]) c68_y 3 0 (a_s a) = Ok (a_s a').
Proof.
  destruct (full_reached c69_cfg c68_y c69_sched c69_start 6) as [a|] eqn:H1;
    [|assert (X : match full_reached c69_cfg c68_y c69_sched c69_start 6 with Ok _ => true | Err _ => false end = true) by reflexivity; rewrite H1 in X; discriminate].
  destruct (full_reached c69_cfg c68_y c69_sched c69_start 7) as [a'|] eqn:H2;
    [|assert (X : match full_reached c69_cfg c68_y c69_sched c69_start 7 with Ok _ => true | Err _ => false end = true) by reflexivity; rewrite H2 in X; discriminate].
  assert (P : match full_reached c69_cfg c68_y c69_sched c69_start 6 with Ok b => match nth_error (a_x b) 0 with Some x => Some (x_i x, length (x_ext x)) | None => None end | Err _ => None end = Some (1%nat, 6%nat)) by reflexivity.
  rewrite H1 in P. destruct (nth_error (a_x a) 0) as [x|] eqn:Ex; [|discriminate]. injection P as P1 P2.
  destruct (nth_error (x_ext x) 1) as [w|] eqn:Ew; [|apply nth_error_None in Ew; lia].
  exists a, a', x, w. split; [reflexivity|]. split; [reflexivity|]. split; [exact Ex|]. split; [exact Ew|].
  refine (proj1 (C69_broadcasts c69_cfg c68_y c69_sched [1; 1]%nat 0 6 6 c69_start 0 6 3 (Some false) a a' x w _ c69_starts eq_refl H1 H2 Ex _ _)); [rewrite P1; exact Ew|].
  split; [reflexivity|]. intros [|ch] Hc; [|cbn in Hc; lia]. split; [reflexivity|]. intros [|[|f]] Hf; [reflexivity|reflexivity|change (S (S f) < 2)%nat in Hf; lia].
Qed.
Definition c69_s : list (list (list R)) := [[[1; 0; 3; 0; 5; 0]]; [[7; 0; 9; 0; 11; 0]]].
Definition c69_n : list (list (list R)) := [[[0; 2; 0; 4; 0; 6]]; [[0; 8; 0; 10; 0; 12]]].
Example C69_ex_components : exists a rs rn, full_run c69_cfg c68_y c69_sched c69_start = Ok a /\
  online_run (replay c69_cfg c68_y a) c69_s c69_sched (online_init 0 (replay c69_cfg c68_y a) [1; 1]%nat 0 6) = Ok rs /\
  online_run (replay c69_cfg c68_y a) c69_n c69_sched (online_init 0 (replay c69_cfg c68_y a) [1; 1]%nat 0 6) = Ok rn /\
  outputs_add (os_d (a_s a)) (os_d rs) (os_d rn).
Proof.
  destruct C69_ex_completes as (a & H).
  assert (M : mixture c68_y c69_s c69_n).
  { split; [reflexivity|]. split; [reflexivity|]. intros k c i. unfold at3.
    destruct k as [|[|k]]; [| |destruct k; destruct c; destruct i; cbn; ring]; (destruct c as [|c]; [|destruct c; destruct i; cbn; ring]); do 6 (destruct i as [|i]; [cbn; ring|]); destruct i; cbn; ring. }
  destruct (C69_components c69_cfg c68_y c69_s c69_n c69_sched [1; 1]%nat 0 6 6 c69_start a eq_refl M c69_starts H) as (rs & rn & E1 & E2 & E3 & _).
  exists a, rs, rn. auto.
Qed.

Print Assumptions C69_replay.
Print Assumptions C69_replay_run.
Print Assumptions C69_components.
Print Assumptions C69_estimates.
Print Assumptions C69_observations.
Print Assumptions C69_matrices.
Print Assumptions C69_compensated_observations.
Print Assumptions C69_broadcasts.
Print Assumptions C69_replay_settings.
Print Assumptions C69_filters.
Print Assumptions C69_optimal.
Print Assumptions C69_completes.
