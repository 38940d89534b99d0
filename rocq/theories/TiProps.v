(** C73: complete runs of topology-independent DANSE. *)
From Verif Require Import Base BaseFacts Sched SchedSpec Buffers ChunkSpec Tree TreeSpec TreeCheck Cx CxFacts Scm ScmSpec Level Wola Dist Online Filt Ext Full InNet InNetSpec
  TiRun TiSpec TiFacts2 TiFacts3 TiFacts4 TiFacts5 TiFacts6 FullSpec FullFacts7 TiFacts7.
From Coq Require Import Reals Lra Sorted.
Local Open Scope nat_scope.

(** A run over trees does what the nodes do with an ideal exchange, in which every node is
    handed the sum of the frames of all the others: it completes exactly when the ideal run
    does, with the same filters, outputs and fused signals at all nodes.  Whatever the
    trees (a new one may be formed at any instant), their roots, the signals, activity
    decisions and filter estimates. *)
Theorem C73_ideal_exchange c y trees sched nodes :
  (0 < p_Ns (o_p (tc_o c)) < p_N (o_p (tc_o c)))%Z -> enough c -> within_signals c y sched ->
  regular (length nodes) trees 0 sched -> nodes <> [] ->
  match ideal_run c y sched (ideal_start c nodes) with
  | Ok l => exists s, ti_full_run c y trees sched (ti_start c nodes) = Ok s /\ view s = l
  | Err _ => exists e, ti_full_run c y trees sched (ti_start c nodes) = Err e
  end.
Proof. exact (run_is_ideal c y trees sched nodes). Qed.

(** The outcome does not depend on the topology: two runs over different trees, formed at
    different instants, but with the same instants of exchange and the same updates with the
    same bypass marks, leave the same filters, outputs and fused signals at all nodes, or
    fail both. *)
Theorem C73_topology_independent c y trees1 trees2 sched1 sched2 nodes :
  (0 < p_Ns (o_p (tc_o c)) < p_N (o_p (tc_o c)))%Z -> enough c -> within_signals c y sched1 -> within_signals c y sched2 ->
  regular (length nodes) trees1 0 sched1 -> regular (length nodes) trees2 0 sched2 -> nodes <> [] ->
  Forall2 (fun i j => in_t i = in_t j /\ forall k, updates_of i k = updates_of j k) (filter exchanges sched1) (filter exchanges sched2) ->
  (exists s1 s2, ti_full_run c y trees1 sched1 (ti_start c nodes) = Ok s1 /\ ti_full_run c y trees2 sched2 (ti_start c nodes) = Ok s2 /\
     ts_nodes s1 = ts_nodes s2 /\ zpb (ts_net s1) = zpb (ts_net s2)) \/
  (exists e1 e2, ti_full_run c y trees1 sched1 (ti_start c nodes) = Err e1 /\ ti_full_run c y trees2 sched2 (ti_start c nodes) = Err e2).
Proof. exact (same_outcome c y trees1 trees2 sched1 sched2 nodes). Qed.

(** Runs in whole chunks with unrelaxed external filters complete, as long as the
    coefficients of the in-network sum (initial and estimated) are not zero. *)
Theorem C73_completes c y trees sched q T slots nodes :
  settings c y q T slots -> timely c T sched -> regular (length nodes) trees 0 sched -> length nodes = length y -> nodes <> [] ->
  (forall k nd, nth_error nodes k = Some nd -> ready c y T slots k nd /\ fn_i (tn_f nd) = 0) ->
  length (filter exchanges sched) < slots ->
  exists s, ti_full_run c y trees sched (ti_start c nodes) = Ok s.
Proof.
  intros HS HT HR HL Hn HF Hx. refine (ti_completes (length nodes) c y trees sched q T slots nodes HS HT HR eq_refl HL _ HF Hx). destruct nodes; [congruence|cbn; lia].
Qed.

(** Sending fewer samples at a time than the frames advance by (one at a time by default)
    does not work: the in-network sums have too few samples, and every run with an update
    fails. *)
Theorem C73_few_samples_refuted c y trees sched nodes :
  p_whole (o_p (tc_o c)) = false -> p_efficient (o_p (tc_o c)) = false ->
  (0 < p_L (o_p (tc_o c)) < p_Ns (o_p (tc_o c)))%Z -> (p_Ns (o_p (tc_o c)) + 2 <= p_N (o_p (tc_o c)))%Z ->
  (exists i k, In i sched /\ length (in_byp i) = length (in_evs i) /\ In (k, Up) (in_evs i)) ->
  exists e, ti_full_run c y trees sched (ti_start c nodes) = Err e.
Proof.
  intros H1 H2 H3 H4 (i & k & Hi & Hb & Hk). destruct (ti_full_run c y trees sched (ti_start c nodes)) as [s|e] eqn:E; [|eauto]. exfalso.
  assert (A1 : tc_Ns c + 2 <= tc_N c) by (unfold tc_Ns, tc_N; lia). assert (A2 : Z.to_nat (p_L (o_p (tc_o c))) < tc_Ns c) by (unfold tc_Ns; lia).
  exact (short_run c y trees A1 A2 H1 H2 sched (ti_start c nodes) s (short_start c A1 A2 H1 H2 _) E i k Hi Hb Hk).
Qed.

(** With relaxed external filters the fusion vector is divided by zero.  [old] is the
    external filter in use at an update at which updates are enabled; if the coefficient of
    the in-network sum is zero in some bin both in [old] and in the target filter (as in
    the default initialisation, which selects the first sensor), the next fusion of this
    node divides by zero, whatever the signals and estimates. *)
Theorem C73_relaxed_fusion_refuted c y t t' k byp em nd nd' yk buf f old :
  p_whole (o_p (tc_o c)) = true -> (0 < p_N (o_p (tc_o c)))%Z ->
  ti_update c y t k byp em nd = Ok nd' -> e_start (fn_danse (tn_f nd')) = true ->
  xp_ref_only (ac_x (tc_a c) k) = false -> xp_single (ac_x (tc_a c) k) = false -> xp_off (ac_x (tc_a c) k) = false ->
  nth_error y k = Some yk -> nth_error (x_ext (tn_x nd)) (x_i (tn_x nd)) = Some old ->
  f < tc_bins c -> old f (length yk) = czero -> x_target (tn_x nd) f (length yk) = czero ->
  (forall sn col, nth_error (o_nodes (tc_o c)) k = Some sn -> In col yk -> (0 <= t' / period sn <= Z.of_nat (length col))%Z) ->
  ti_fusion c y t' k buf nd' = Err ZeroDivisionError.
Proof. exact (relaxed_fails c y t t' k byp em nd nd' yk buf f old). Qed.

(** Under sequential updating, the first node replaces the estimated coefficient of the
    in-network sum by one (from one second on, when its update is not bypassed), without
    scaling the other coefficients: the filter it uses is not the estimated one. *)
Theorem C73_first_node_coefficient c y t em nd nd' :
  ti_update c y t 0 false em nd = Ok nd' -> p_seq (o_p (tc_o c)) = true -> (tn_norm nd <= t)%Z ->
  exists yk w, nth_error y 0 = Some yk /\ nth_error (e_w (fn_danse (tn_f nd'))) (S (fn_i (tn_f nd))) = Some w /\
    (forall f, f < tc_bins c -> w f (length yk) = cone) /\
    let e := fn_danse (tn_f nd') in
    if negb (f_bypass_all (ac_p (tc_a c))) && e_start e
    then forall f ch, ch <> length yk -> w f ch = ac_solve (tc_a c) (e_dim e) (e_ryy e) (e_rnn e) f ch
    else exists w0, nth_error (e_w (fn_danse (tn_f nd))) (S (fn_i (tn_f nd))) = Some w0 /\ never_zero (tc_bins c) (length yk) w0 /\ forall f ch, ch <> length yk -> w f ch = w0 f ch.
Proof. exact (normalised c y t em nd nd'). Qed.

(** ... and as long as updates are not enabled yet, with an initial filter in which this
    coefficient is zero in some bin, it divides zero by zero: an update that completes when
    bypassed fails when not bypassed. *)
Theorem C73_first_node_undefined_refuted c y t em nd nd' f yk w0 :
  ti_update c y t 0 true em nd = Ok nd' ->
  p_seq (o_p (tc_o c)) = true -> (tn_norm nd <= t)%Z -> e_start (fn_danse (tn_f nd')) = false -> nth_error y 0 = Some yk ->
  nth_error (e_w (fn_danse (tn_f nd))) (S (fn_i (tn_f nd))) = Some w0 -> f < tc_bins c -> w0 f (length yk) = czero ->
  ti_update c y t 0 false em nd = Err ZeroDivisionError.
Proof. exact (undefined_before c y t em nd nd' f yk w0). Qed.

(** Fused signals in whole chunks: the local signals, weighted by the coefficients of the
    external filter divided, once updates are enabled, by its coefficient of the in-network
    sum; the node is left as it was. *)
Theorem C73_fused_signal c y t k buf nd sn yk w v lv cols :
  p_whole (o_p (tc_o c)) = true -> (0 < p_N (o_p (tc_o c)))%Z -> nth_error (o_nodes (tc_o c)) k = Some sn -> nth_error y k = Some yk ->
  nth_error (x_ext (tn_x nd)) (x_i (tn_x nd)) = Some w ->
  (forall col, In col yk -> (0 <= t / period sn <= Z.of_nat (length col))%Z) ->
  (if e_start (fn_danse (tn_f nd)) then never_zero (tc_bins c) (length yk) w /\ forall f ch, f < tc_bins c -> ch < length yk -> (v f ch * w f (length yk))%cx = w f ch
   else forall f ch, f < tc_bins c -> ch < length yk -> v f ch = w f ch) ->
  laid_out (length yk) (tc_bins c) v lv -> frames (p_N (o_p (tc_o c))) (t / period sn) yk cols ->
  ti_fusion c y t k buf nd = match compress_whole_chunk (tc_N c) (tc_Ns c) (o_h (tc_o c)) (o_f (tc_o c)) lv cols buf with Ok z => Ok (Some (snd z), nd) | Err e => Err e end.
Proof. exact (fused_signal c y t k buf nd sn yk w v lv cols). Qed.

(** Fusion of a few samples: the time-domain filter is the approximation of the external
    filter, renewed when the last renewal is [o_every] ticks ago or more, and unchanged
    otherwise. *)
Theorem C73_filter_renewal c y t k buf nd z nd' : p_whole (o_p (tc_o c)) = false -> ti_fusion c y t k buf nd = Ok (Some z, nd') ->
  ((Z.abs (t - tn_up nd) < o_every (tc_o c))%Z -> tn_wir nd' = tn_wir nd /\ tn_up nd' = tn_up nd) /\
  ((o_every (tc_o c) <= Z.abs (t - tn_up nd))%Z -> tn_up nd' = t /\
     forall yk w l, nth_error y k = Some yk -> nth_error (x_ext (tn_x nd)) (x_i (tn_x nd)) = Some w -> laid_out (S (length yk)) (tc_bins c) w l ->
       if o_nofuse (tc_o c) && Nat.eqb (length yk) 1 then tn_wir nd' = tn_wir nd else dist_fct_approx (o_h (tc_o c)) (o_f (tc_o c)) (tc_Ns c) l = Ok (tn_wir nd')).
Proof. exact (fusion_few c y t k buf nd z nd'). Qed.

(** Other nodes, and all nodes when updating is not sequential, use the estimated filter;
    so does the first node during the first second of a run. *)
Theorem C73_estimated_filter c y t k em nd nd' : ti_update c y t k false em nd = Ok nd' -> k <> 0 \/ p_seq (o_p (tc_o c)) = false ->
  exists w, nth_error (e_w (fn_danse (tn_f nd'))) (S (fn_i (tn_f nd))) = Some w /\ estimated_filter c nd nd' w.
Proof. intros H Hn. apply (not_normalised c y t k em nd nd' H). tauto. Qed.
Theorem C73_first_second c y t k em f x d dl wir nd nd' :
  reached_before c y k (tc_sec c) (ti_node0 c f x d dl wir) nd -> (t < tc_sec c)%Z -> ti_update c y t k false em nd = Ok nd' ->
  exists w, nth_error (e_w (fn_danse (tn_f nd'))) (S (fn_i (tn_f nd))) = Some w /\ estimated_filter c nd nd' w.
Proof.
  intros H Ht HU. apply (not_normalised c y t k em nd nd' HU). right. right. rewrite (reached_norm _ _ _ _ _ _ H); cbn [ti_node0 tn_norm]; lia.
Qed.

(** The output and the local output of an update: the frames of the local signals and the
    in-network sum, filtered by the filter that the update leaves for the next iteration. *)
Theorem C73_outputs c y t k byp em nd nd' sn yk : (0 < p_N (o_p (tc_o c)))%Z ->
  let e := (t / period sn - (if p_whole (o_p (tc_o c)) then p_N (o_p (tc_o c)) - p_Ns (o_p (tc_o c)) else 0))%Z in
  ti_update c y t k byp em nd = Ok nd' -> nth_error (o_nodes (tc_o c)) k = Some sn -> nth_error y k = Some yk ->
  (forall col, In col yk -> (0 <= e <= Z.of_nat (length col))%Z) ->
  exists cols w, frames (p_N (o_p (tc_o c))) e yk cols /\ nth_error (e_w (fn_danse (tn_f nd'))) (S (fn_i (tn_f nd))) = Some w /\
    let yhat := spectra (tc_N c) (tc_Ns c) (o_h (tc_o c)) (cols ++ [em]) in
    (forall l, laid_out (S (length yk)) (tc_bins c) w l -> estimate (tc_o c) l yhat (S (length yk)) cols (Z.max (e - p_N (o_p (tc_o c))) 0) e (tn_d nd) = Ok (tn_d nd')) /\
    match fn_local (tn_f nd') with
    | None => tn_dl nd' = tn_dl nd
    | Some el => exists wl, nth_error (e_w el) (S (fn_i (tn_f nd))) = Some wl /\
        forall l, laid_out (length yk) (tc_bins c) wl l -> estimate (tc_o c) l (map (firstn (length yk)) yhat) (length yk) cols (Z.max (e - p_N (o_p (tc_o c))) 0) e (tn_dl nd) = Ok (tn_dl nd')
    end.
Proof. exact (outputs c y t k byp em nd nd' sn yk). Qed.

(** ** Three single-sensor nodes, two exchanges; once over the chain 0-1-2 rooted at node 1,
    once over the star 1-0-2 rooted at node 2, with a new tree at the second exchange. *)
Definition c73_nodes : list snode := repeat (mkNode 1 [0; 1; 2; 3; 4; 5]%Z []) 3.
Definition c73_y : list (list (list R)) := [[[1; 2; 3; 4; 5; 6]]; [[0; 1; 0; -1; 0; 1]]; [[2; 0; 2; 0; 2; 0]]]%R.
Definition c73_o (whole seq : bool) (N Ns L : Z) : ocfg :=
  mkO (mkP N Ns L whole false true seq false 0 1) c73_nodes (repeat 1%R (Z.to_nat N)) (repeat 1%R (Z.to_nat N)) true false false 1 false (fun _ _ => []) (fun _ _ => []) (fun _ _ => []) (fun _ _ => []).
(** the matrices are enabled at once ([init]) or never; a filter that depends on them *)
Definition c73_solve (n : nat) (ryy rnn : tens) : coefs := fun f ch => if Nat.eqb ch (n - 1) then cr 2 else csub (ryy f ch 0) (rnn f ch 0).
Definition c73_cfg (o : ocfg) (off init : bool) : tcfg :=
  mkTC (mkAC o (mkF init 0 false false) (fun _ => / 2)%R (fun _ _ _ => false) c73_solve (fun _ => mkX false 0 false off (/ 2) (/ 2) 1) (repeat [true; false; true; true] 3)) 1.
Definition c73_first : coefs := fun _ ch => if Nat.eqb ch 0 then cone else czero.
Definition c73_ones : coefs := fun _ _ => cone.
Definition c73_node (c : tcfg) (w : coefs) : tnode :=
  ti_node0 c (fnode_init (est_init (fun _ => ident) w 4 2) (Some (est_init (fun _ => ident) w 4 1)) None None) (mkXS 0 (repeat w 4) w 0) (repeat 0%R 6) (repeat 0%R 6) [].
Definition c73_chain : list (list nat) := [[1]; [0; 2]; [1]].
Definition c73_star : list (list nat) := [[1; 2]; [0]; [0]].
Definition c73_tree (nb : list (list nat)) (r : nat) : otree := match orientate nb r with Ok (st, _) => (o_up st, r) | Err _ => ([], 0) end.
Definition c73_trees1 := [c73_tree c73_chain 1].
Definition c73_trees2 := [c73_tree c73_star 2; c73_tree c73_star 2].
Definition c73_evs1 : list (nat * evtype) := [(0, Fu); (2, Fu); (1, Fu); (0, Bc); (2, Bc); (1, Bc); (1, Re); (0, Re); (2, Re); (1, Up); (0, Up); (2, Up)].
Definition c73_evs2 : list (nat * evtype) := [(1, Fu); (0, Fu); (2, Fu); (1, Bc); (0, Bc); (2, Bc); (2, Re); (0, Re); (1, Re); (2, Up); (0, Up); (1, Up)].
Definition c73_sched1 : list Sched.instant := [mkInst 0 [(0, Tr)] [false]; mkInst 2 c73_evs1 (repeat false 12); mkInst 3 c73_evs1 (repeat false 12)].
Definition c73_sched2 : list Sched.instant := [mkInst 2 ((0, Tr) :: c73_evs2) (repeat false 13); mkInst 3 ((0, Tr) :: c73_evs2) (repeat false 13)].

Ltac exchange_tac nb r o L :=
  right; split; [cbn; lia|]; exists nb, r, (match orientate nb r with Ok (st, _) => st | Err _ => Tree.mkO [] [] end), o;
  split; [apply (tree_check_ok nb); reflexivity|]; split; [lia|]; split; [reflexivity|]; split; [reflexivity|];
  split; [repeat (constructor; [|repeat (constructor; [first
       [ left; simpl; lia
       | right; split; [reflexivity|]; intros la lb Ha Hb; apply L in Ha; apply L in Hb; simpl in *; lia ]|]); constructor ]); constructor|];
  split; [repeat (constructor; [simpl; intuition discriminate|]); constructor|];
  split; [intros k Hk; destruct k as [|[|[|k]]]; [cbn; tauto|cbn; tauto|cbn; tauto|lia]|
          intros e He; cbn in He; repeat (destruct He as [<-|He]; [cbn; lia|]); destruct He].
Lemma c73_level1 k l : at_level [[0; 2]; [1]] k l -> l = if Nat.eqb k 1 then 1 else 0.
Proof.
  intros [lvl [H1 H2]]. destruct l as [|[|l]]; simpl in H1; [| |destruct l; discriminate]; injection H1 as <-; simpl in H2.
  - destruct H2 as [<-|[<-|[]]]; reflexivity. - destruct H2 as [<-|[]]; reflexivity.
Qed.
Lemma c73_level2 k l : at_level [[1]; [0]; [2]] k l -> l = match k with 0 => 1 | 1 => 0 | _ => 2 end.
Proof.
  intros [lvl [H1 H2]]. destruct l as [|[|[|l]]]; simpl in H1; [| | |destruct l; discriminate]; injection H1 as <-; simpl in H2; destruct H2 as [<-|[]]; reflexivity.
Qed.
Lemma c73_regular1 : regular 3 c73_trees1 0 c73_sched1.
Proof.
  cbn [regular c73_sched1]. split; [reflexivity|]. split; [cbn; lia|]. split; [left; exists 0; cbn; auto|].
  split; [reflexivity|]. split; [cbn; lia|]. split; [exchange_tac c73_chain 1 [[0; 2]; [1]] c73_level1|].
  split; [reflexivity|]. split; [cbn; lia|]. split; [exchange_tac c73_chain 1 [[0; 2]; [1]] c73_level1|]. exact I.
Qed.
Lemma c73_regular2 : regular 3 c73_trees2 0 c73_sched2.
Proof.
  cbn [regular c73_sched2].
  split; [reflexivity|]. split; [cbn; lia|]. split; [exchange_tac c73_star 2 [[1]; [0]; [2]] c73_level2|].
  split; [reflexivity|]. split; [cbn; lia|]. split; [exchange_tac c73_star 2 [[1]; [0]; [2]] c73_level2|]. exact I.
Qed.
Lemma c73_within c : o_nodes (tc_o c) = c73_nodes -> forall sched, (forall i, In i sched -> (0 <= in_t i <= 6)%Z) -> within_signals c c73_y sched.
Proof.
  intros Hc sched Hs i k sn yk col Hi _ Hsn Hy Hcol. rewrite Hc in Hsn. apply nth_error_In, repeat_spec in Hsn. subst sn. cbn [period]. rewrite Z.div_1_r.
  assert (L : length col = 6). { apply nth_error_In in Hy. repeat (destruct Hy as [<-|Hy]; [destruct Hcol as [<-|[]]; reflexivity|]). destruct Hy. }
  rewrite L. now apply Hs.
Qed.
Lemma c73_same_updates :
  Forall2 (fun i j => in_t i = in_t j /\ forall k, updates_of i k = updates_of j k) (filter exchanges c73_sched1) (filter exchanges c73_sched2).
Proof. repeat (constructor; [split; [reflexivity|]; intros k; destruct k as [|[|[|k]]]; reflexivity|]). constructor. Qed.
Lemma c73_settings : settings (c73_cfg (c73_o true true 2 1 1) true true) c73_y 1 6 4.
Proof.
  constructor; try (repeat split; (lia || reflexivity)).
  - repeat (constructor; [split; [discriminate|repeat constructor]|]). constructor.
  - intros k Hk. exists [true; false; true; true]. split; [|cbn; lia]. destruct k as [|[|[|k]]]; [reflexivity..|cbn in Hk; lia].
  - intros m ryy rnn f _ E. cbn [ac_solve tc_a c73_cfg] in E. unfold c73_solve in E. replace (Nat.eqb m (S m - 1)) with true in E by (symmetry; apply Nat.eqb_eq; lia).
    apply (f_equal re) in E. cbn in E. lra.
Qed.
Lemma c73_ready c k : k < 3 -> ready c c73_y 6 4 k (c73_node c c73_ones).
Proof.
  intros Hk. assert (L : length (nth k c73_y []) = 1) by (destruct k as [|[|[|k]]]; [reflexivity..|lia]).
  assert (F : Forall (never_zero (tc_bins c) 1) (repeat c73_ones 4)).
  { apply Forall_forall. intros w Hw. apply repeat_spec in Hw. subst w. intros f _ E. apply (f_equal re) in E. cbn in E. lra. }
  constructor; rewrite ?L.
  - split; [reflexivity|exact F].
  - reflexivity.
  - split; [eexists; split; reflexivity|split; reflexivity].
  - split; [reflexivity|]. split; [reflexivity|exact F].
  - split; reflexivity.
Qed.
Lemma c73_timely c sched : o_nodes (tc_o c) = c73_nodes -> (p_N (o_p (tc_o c)) - p_Ns (o_p (tc_o c)) < 2)%Z ->
  (forall i, In i sched -> exchanges i = true -> (2 <= in_t i <= 6)%Z) -> timely c 6 sched.
Proof.
  intros Hc HN Hs i k sn Hi Hx Hsn. rewrite Hc in Hsn. apply nth_error_In, repeat_spec in Hsn. subst sn. cbn [period]. rewrite Z.div_1_r. specialize (Hs i Hi Hx). split; [|intros _]; lia.
Qed.
(** Both runs complete, under sequential updating with updates enabled from the start... *)
Example C73_ex_completes : let c := c73_cfg (c73_o true true 2 1 1) true true in
  (exists s, ti_full_run c c73_y c73_trees1 c73_sched1 (ti_start c (repeat (c73_node c c73_ones) 3)) = Ok s) /\
  (exists s, ti_full_run c c73_y c73_trees2 c73_sched2 (ti_start c (repeat (c73_node c c73_ones) 3)) = Ok s).
Proof.
  intros c.
  assert (R : forall k nd, nth_error (repeat (c73_node c c73_ones) 3) k = Some nd -> ready c c73_y 6 4 k nd /\ fn_i (tn_f nd) = 0).
  { intros k nd H. assert (k < 3) by (change 3 with (length (repeat (c73_node c c73_ones) 3)); apply nth_error_Some; congruence).
    apply nth_error_In, repeat_spec in H. subst nd. split; [now apply c73_ready|reflexivity]. }
  split.
  - apply (C73_completes c c73_y c73_trees1 c73_sched1 1 6 4); [exact c73_settings| |exact c73_regular1|reflexivity|discriminate|exact R|cbn; lia].
    apply c73_timely; [reflexivity|cbn; lia|]. intros i Hi. repeat (destruct Hi as [<-|Hi]; [cbn; (discriminate || lia)|]). destruct Hi.
  - apply (C73_completes c c73_y c73_trees2 c73_sched2 1 6 4); [exact c73_settings| |exact c73_regular2|reflexivity|discriminate|exact R|cbn; lia].
    apply c73_timely; [reflexivity|cbn; lia|]. intros i Hi. repeat (destruct Hi as [<-|Hi]; [cbn; (discriminate || lia)|]). destruct Hi.
Qed.
(** ... and leave the same filters and outputs at all nodes. *)
Example C73_ex_same : let c := c73_cfg (c73_o true true 2 1 1) true true in
  exists s1 s2, ti_full_run c c73_y c73_trees1 c73_sched1 (ti_start c (repeat (c73_node c c73_ones) 3)) = Ok s1 /\
    ti_full_run c c73_y c73_trees2 c73_sched2 (ti_start c (repeat (c73_node c c73_ones) 3)) = Ok s2 /\ ts_nodes s1 = ts_nodes s2.
Proof.
  intros c.
  destruct (C73_topology_independent c c73_y c73_trees1 c73_trees2 c73_sched1 c73_sched2 (repeat (c73_node c c73_ones) 3)) as [(s1 & s2 & A & B & C & _)|(e1 & e2 & A & _)].
  - cbn. lia.
  - left. reflexivity.
  - apply c73_within; [reflexivity|]. intros i Hi. repeat (destruct Hi as [<-|Hi]; [cbn; lia|]). destruct Hi.
  - apply c73_within; [reflexivity|]. intros i Hi. repeat (destruct Hi as [<-|Hi]; [cbn; lia|]). destruct Hi.
  - exact c73_regular1.
  - exact c73_regular2.
  - discriminate.
  - exact c73_same_updates.
  - exists s1, s2. auto.
  - destruct C73_ex_completes as ((s & E) & _). fold c in E. congruence.
Qed.
(** Node 0 of this network, at its first update: the estimated coefficient of the
    in-network sum is two, the one used is one. *)
Example C73_ex_coefficient : let c := c73_cfg (c73_o true true 2 1 1) true true in
  exists nd' w, ti_update c c73_y 2 0 false [1; 1]%R (c73_node c c73_ones) = Ok nd' /\
    nth_error (e_w (fn_danse (tn_f nd'))) 1 = Some w /\ w 0 1 = cone /\
    let e := fn_danse (tn_f nd') in w 0 0 = c73_solve 2 (e_ryy e) (e_rnn e) 0 0 /\ c73_solve 2 (e_ryy e) (e_rnn e) 0 1 = cr 2.
Proof.
  intros c.
  destruct (update_ok c c73_y 1 6 4 c73_settings 2 0 false [1; 1]%R [[1; 2; 3; 4; 5; 6]%R] (c73_node c c73_ones)) as (nd' & E & R & _);
    [reflexivity|apply c73_ready; lia|reflexivity|cbn; lia| |].
  - intros sn Hsn. injection Hsn as <-. cbn. lia.
  - destruct (C73_first_node_coefficient c c73_y 2 [1; 1]%R (c73_node c c73_ones) nd' E) as (yk & w & Hy & Hw & H1 & H2); [reflexivity|cbn; lia|]. injection Hy as <-.
    exists nd', w. split; [exact E|]. split; [exact Hw|]. split; [apply (H1 0); cbn; lia|]. cbv zeta in H2 |- *.
    assert (St : e_start (fn_danse (tn_f nd')) = true).
    { exact (update_enabled _ _ _ _ _ _ _ _ E eq_refl). }
    rewrite St in H2. cbn [negb andb f_bypass_all ac_p tc_a c c73_cfg] in H2. split; [|reflexivity].
    rewrite (H2 0 0) by discriminate. rewrite (re_dim _ _ _ _ _ _ R). reflexivity.
Qed.
(** Node 1 of this network, with updates enabled and a coefficient of two for the in-network
    sum: its sensor is halved.  At its first update it uses the estimated filter. *)
Definition c73_two : coefs := fun _ ch => cr (if Nat.eqb ch 1 then 2 else 1).
Definition c73_enabled (c : tcfg) : tnode :=
  ti_node0 c (fnode_init (mkE (fun _ => ident) (fun _ => ident) true (repeat c73_two 4) 0 2) None None None) (mkXS 0 (repeat c73_two 4) c73_two 0) (repeat 0%R 6) (repeat 0%R 6) [].
Example C73_ex_fused_signal : let c := c73_cfg (c73_o true true 2 1 1) true true in
  ti_fusion c c73_y 2 1 [] (c73_enabled c) =
    match compress_whole_chunk 2 1 [1; 1]%R [1; 1]%R [[cr (/ 2); cr (/ 2)]] [[0; 1]%R] [] with Ok z => Ok (Some (snd z), c73_enabled c) | Err e => Err e end.
Proof.
  intros c. apply (C73_fused_signal c c73_y 2 1 [] (c73_enabled c) (mkNode 1 [0; 1; 2; 3; 4; 5]%Z []) [[0; 1; 0; -1; 0; 1]%R] c73_two (fun _ _ => cr (/ 2))); try reflexivity.
  - intros col [<-|[]]. cbn. lia.
  - cbn [e_start fn_danse tn_f c73_enabled ti_node0 fnode_init length]. split; [intros f _ E; apply (f_equal re) in E; cbn in E; lra|]. intros f ch _ Hch. destruct ch; [|lia]. apply cx_eq; cbn; lra.
  - split; [reflexivity|]. intros ch Hch. destruct ch as [|ch]; [|cbn in Hch; lia]. split; [reflexivity|]. intros f Hf. change (tc_bins c) with 2 in Hf. destruct f as [|[|f]]; [reflexivity..|lia].
  - constructor; [|constructor]. split; [reflexivity|]. intros i Hi. change (p_N (o_p (tc_o c))) with 2%Z in *. assert (I : i = 0%Z \/ i = 1%Z) by lia. destruct I as [-> | -> ]; reflexivity.
Qed.
(** Fusion one sample at a time, filters renewed every tick at most: the first fusion renews
    the filter, a second one at the same tick does not. *)
Example C73_ex_renewal : let c := c73_cfg (c73_o false true 2 1 1) true true in
  exists z nd' z' nd'', ti_fusion c c73_y 2 1 [] (c73_node c c73_ones) = Ok (Some z, nd') /\ tn_up nd' = 2%Z /\
    ti_fusion c c73_y 2 1 z nd' = Ok (Some z', nd'') /\ tn_wir nd'' = tn_wir nd'.
Proof.
  intros c. assert (X : match ti_fusion c c73_y 2 1 [] (c73_node c c73_ones) with Ok (Some z, nd') => match ti_fusion c c73_y 2 1 z nd' with Ok (Some _, _) => true | _ => false end | _ => false end = true) by reflexivity.
  destruct (ti_fusion c c73_y 2 1 [] (c73_node c c73_ones)) as [[[z|] nd']|] eqn:E; try discriminate.
  destruct (ti_fusion c c73_y 2 1 z nd') as [[[z'|] nd'']|] eqn:E'; try discriminate.
  exists z, nd', z', nd''. split; [reflexivity|].
  destruct (C73_filter_renewal c c73_y 2 1 [] _ z nd' eq_refl E) as [_ H]. destruct H as [H _]; [cbn; lia|]. split; [exact H|]. split; [exact E'|].
  destruct (C73_filter_renewal c c73_y 2 1 z _ z' nd'' eq_refl E') as [K _]. apply K. rewrite H. cbn. lia.
Qed.
Example C73_ex_first_second : let c := c73_cfg (c73_o true true 2 1 1) true true in
  exists nd' w, ti_update c c73_y 2 1 false [1; 1]%R (c73_node c c73_ones) = Ok nd' /\
    nth_error (e_w (fn_danse (tn_f nd'))) 1 = Some w /\ w 0 1 = cr 2 /\ forall d, tn_d nd' = d -> length d = 6.
Proof.
  intros c.
  destruct (update_ok c c73_y 1 6 4 c73_settings 2 1 false [1; 1]%R [[0; 1; 0; -1; 0; 1]%R] (c73_node c c73_ones)) as (nd' & E & R & _);
    [reflexivity|apply c73_ready; lia|reflexivity|cbn; lia| |].
  - intros sn Hsn. injection Hsn as <-. cbn. lia.
  - destruct (C73_estimated_filter c c73_y 2 1 [1; 1]%R (c73_node c c73_ones) nd' E) as (w & Hw & H2); [left; discriminate|].
    exists nd', w. split; [exact E|]. split; [exact Hw|]. split; [|intros d <-; apply (re_d _ _ _ _ _ _ R)]. unfold estimated_filter in H2. cbv zeta in H2.
    rewrite (update_enabled _ _ _ _ _ _ _ _ E eq_refl) in H2. cbn [negb andb f_bypass_all ac_p tc_a c c73_cfg] in H2. rewrite H2, (re_dim _ _ _ _ _ _ R). reflexivity.
Qed.
(** The default initialisation selects the first sensor: the same node, with updates never
    enabled, completes a bypassed update and divides by zero otherwise... *)
Example C73_ex_undefined : let c := c73_cfg (c73_o true true 2 1 1) true false in
  ti_update c c73_y 2 0 false [1; 1]%R (c73_node c c73_first) = Err ZeroDivisionError.
Proof.
  intros c. destruct (ti_update c c73_y 2 0 true [1; 1]%R (c73_node c c73_first)) as [nd'|] eqn:E.
  - assert (St : match ti_update c c73_y 2 0 true [1; 1]%R (c73_node c c73_first) with Ok nd => e_start (fn_danse (tn_f nd)) | Err _ => true end = false) by reflexivity.
    rewrite E in St.
    apply (C73_first_node_undefined_refuted c c73_y 2 [1; 1]%R (c73_node c c73_first) nd' 0 [[1; 2; 3; 4; 5; 6]%R] c73_first E); try reflexivity; [cbn; lia|exact St|cbn; lia].
  - exfalso. assert (X : match ti_update c c73_y 2 0 true [1; 1]%R (c73_node c c73_first) with Ok _ => true | Err _ => false end = true) by reflexivity.
    rewrite E in X. discriminate.
Qed.
(** ... and with relaxed external filters and updates enabled, fusion after the first
    update divides by zero. *)
Example C73_ex_relaxed : let c := c73_cfg (c73_o true false 2 1 1) false true in
  exists nd', ti_update c c73_y 2 0 false [1; 1]%R (c73_node c c73_first) = Ok nd' /\ ti_fusion c c73_y 3 0 [] nd' = Err ZeroDivisionError.
Proof.
  intros c. destruct (ti_update c c73_y 2 0 false [1; 1]%R (c73_node c c73_first)) as [nd'|] eqn:E.
  - exists nd'. split; [reflexivity|].
    assert (St : match ti_update c c73_y 2 0 false [1; 1]%R (c73_node c c73_first) with Ok nd => e_start (fn_danse (tn_f nd)) | Err _ => false end = true) by reflexivity.
    rewrite E in St.
    apply (C73_relaxed_fusion_refuted c c73_y 2 3 0 false [1; 1]%R (c73_node c c73_first) nd' [[1; 2; 3; 4; 5; 6]%R] [] 0 c73_first); try reflexivity; [exact E|exact St|cbn; lia|].
    intros sn col Hsn [<-|[]]. injection Hsn as <-. cbn. lia.
  - exfalso. assert (X : match ti_update c c73_y 2 0 false [1; 1]%R (c73_node c c73_first) with Ok _ => true | Err _ => false end = true) by reflexivity.
    rewrite E in X. discriminate.
Qed.
(** One sample at a time, frames of four samples that advance by two: no run with updates. *)
Example C73_ex_few_samples : let c := c73_cfg (c73_o false false 4 2 1) true true in
  exists e, ti_full_run c c73_y c73_trees1 c73_sched1 (ti_start c (repeat (c73_node c c73_ones) 3)) = Err e.
Proof.
  intros c. apply C73_few_samples_refuted; try reflexivity; try (cbn; lia).
  exists (mkInst 2 c73_evs1 (repeat false 12)), 0. cbn. intuition.
Qed.

Print Assumptions C73_ideal_exchange.
Print Assumptions C73_topology_independent.
Print Assumptions C73_completes.
Print Assumptions C73_few_samples_refuted.
Print Assumptions C73_relaxed_fusion_refuted.
Print Assumptions C73_first_node_coefficient.
Print Assumptions C73_first_node_undefined_refuted.
Print Assumptions C73_fused_signal.
Print Assumptions C73_filter_renewal.
Print Assumptions C73_estimated_filter.
Print Assumptions C73_first_second.
Print Assumptions C73_outputs.
