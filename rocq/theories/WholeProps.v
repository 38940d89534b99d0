(** Property C70: what whole-chunk broadcasts send.  Vocabulary: WholeSpec.v. *)
From Verif Require Import Base BaseFacts Sched SchedSpec InstSpec Buffers BufSpec BufFacts ChunkSpec Cx CxFacts Wola WolaFacts Online OnlineSpec OutSpec OutFacts OutFacts2 OutFacts3 OutProps SchedProps DistSpec DistFacts2 SyncFacts LatestSpec LatestFacts LatestFacts2 LatestFacts3 LatestFacts4 LatestFacts5 CompleteFacts CompleteFacts3 LatestProps WholeSpec WholeFacts WholeFacts2.
From Verif Require ScmFacts2.
From Coq Require Import Reals Lra.
Local Open Scope Z_scope.

(** ** C70 *)
(** Any run: the chunk of a broadcast is the overlap-add of the frame ending at the instant
    of the broadcast, fused with the external filter of the node's current iteration, with
    the fused frame of its previous broadcast, normalised by the squared analysis window;
    without normalisation at the first broadcast and after a chunk of zeros. *)
Theorem C70_chunks_sent c y q T k sched nsens ref m t r :
  let evs := flat_events sched in
  let st0 := online_init 0%R c nsens ref T in
  let e t := t / period (nth k (o_nodes c) (mkNode 1 [] [])) in
  let iteration m := length (updates_of k (firstn m evs)) in
  let h j := nth j (o_h c) 0%R in
  let f j := nth j (o_f c) 0%R in
  p_N (o_p c) = Z.of_nat (2 * q) -> (0 < q)%nat -> p_Ns (o_p c) = Z.of_nat q -> p_whole (o_p c) = true -> length (o_h c) = (2 * q)%nat ->
  Forall (fun col => length col = T) (nth k y []) ->
  online_run c y sched st0 = Ok r -> nth_error evs m = Some (t, (k, Bc)) -> 0 <= e t <= Z.of_nat T ->
  exists s x, reached c y sched st0 (S m) = Ok s /\ fused_frame c y q k (iteration m) (e t) x /\ length (chunk s k) = (2 * q)%nat /\
    (forall j, (q <= j < 2 * q)%nat -> (nth j (chunk s k) 0 = f j * x j)%R) /\
    (no_broadcast k evs 0 m -> forall j, (j < q)%nat -> (nth j (chunk s k) 0 = f j * x j)%R) /\
    (forall m' t', (m' < m)%nat -> nth_error evs m' = Some (t', (k, Bc)) -> no_broadcast k evs (S m') m -> 0 <= e t' <= Z.of_nat T ->
       exists s' x', reached c y sched st0 (S m') = Ok s' /\ fused_frame c y q k (iteration m') (e t') x' /\
         (forall j, (q <= j < 2 * q)%nat -> (nth j (chunk s' k) 0 = f j * x' j)%R) /\
         (silent (chunk s' k) -> forall j, (j < q)%nat -> (nth j (chunk s k) 0 = f j * x j)%R) /\
         (~ silent (chunk s' k) -> forall j, (j < q)%nat ->
            (nth j (chunk s k) 0 = (f (q + j)%nat * x' (q + j)%nat + f j * x j) / (h (q + j)%nat * h (q + j)%nat + h j * h j))%R)).
Proof. intros evs st0 e iteration h f HN Hq HNs Hwh Hh Hy. exact (chunks_sent c y q T k sched nsens ref HN Hq HNs Hwh Hh Hy m t r). Qed.

(** Synchronous networks, whole runs from the schedule on, same window without zeros for
    analysis and synthesis, external filters with gains [g] constant over frequency and
    iterations: the frames node [k] receives from [q] contain the fused signal of [q],
    aligned with the local signals, exactly from the second hop on, and at the gain of the
    two windows in the first. *)
Theorem C70_fused_received tsort c y nsens qq T ref ordering_of per g :
  is_argsort tsort -> regular c per T -> consistent c y nsens qq T -> p_whole (o_p c) = true -> p_N (o_p c) = 2 * p_Ns (o_p c) ->
  o_f c = o_h c -> Forall (fun v => v <> 0%R) (o_h c) ->
  (forall k i, (k < length y)%nat -> flat qq (o_ext c k i) (length (nth k y [])) (g k)) ->
  exists sched r, initialize_events tsort (o_p c) (o_nodes c) ordering_of = Ok (sched, []) /\
    online_run c y sched (online_init 0%R c nsens ref T) = Ok r /\
    forall m t k idx q, nth_error (flat_events sched) m = Some (t, (k, Up)) -> link (map nbrs (o_nodes c)) k idx q ->
      exists s, reached c y sched (online_init 0%R c nsens ref T) (S m) = Ok s /\
        forall i, (i < 2 * qq)%nat ->
          let n := frame_end c k t - Z.of_nat (2 * qq) + Z.of_nat i in
          (nth i (received_frame s k idx) 0 = start_gain (o_h c) qq n * mixed y q (g q) n)%R.
Proof.
  intros Hs HR Hc Hwh HN2 Hfh Hnz Hfl. pose proof HR as [R1 R2 R3 R4 R5 R6 R7 R8 R9].
  destruct (completes tsort c y nsens qq T ref ordering_of per Hc Hs R1 R2 (fun H => Logic.conj (R3 H) HN2) R4 R5 R6 R7 R8 R9) as (sched & r & E1 & Hev & E2).
  exists sched, r. split; [exact E1|]. split; [exact E2|]. intros m t k idx q Hm HL.
  destruct (run_reached c y sched (online_init 0%R c nsens ref T) r (S m) E2) as (s & Es). exists s. split; [exact Es|]. intros i Hi n.
  destruct (cs_frame _ _ _ _ _ Hc) as [Hq EN]. destruct (cs_windows _ _ _ _ _ Hc) as (Hh & _ & _). pose proof (cs_nodes _ _ _ _ _ Hc) as LN.
  assert (ENs : p_Ns (o_p c) = Z.of_nat qq) by lia. assert (EL : p_L (o_p c) = Z.of_nat qq) by (rewrite (R3 Hwh); exact ENs).
  assert (Hclk : forall nd, In nd (o_nodes c) -> period nd = per) by (intros nd Hnd; apply (proj2 R8 nd Hnd)).
  destruct (aligned c y sched nsens ref T per T R1 R3 (or_introl Hwh) R5 R6 (proj1 R8) Hclk R9 Hev m t k idx q s i Hm HL Es ltac:(lia)) as [A B].
  rewrite EN in A, B. fold n in A, B.
  destruct (Z.ltb_spec n 0) as [Hn|Hn].
  { rewrite (A Hn). unfold mixed. rewrite sumR_zero; [ring|]. intros ch _. unfold sample. destruct (Z.ltb_spec n 0); [ring|lia]. }
  destruct (B Hn) as (m' & t' & s' & B1 & B2 & B3 & B4 & B5 & B6). rewrite B6.
  assert (Hqn : (q < length y)%nat).
  { destruct HL as [l [Hl Hx]]. destruct (proj1 R9 _ _ Hl) as [_ [_ Hr]]. specialize (Hr q (nth_error_In _ _ Hx)). rewrite map_length in Hr. lia. }
  pose proof (cs_signals _ _ _ _ _ Hc) as HSg. rewrite Forall_forall in HSg. destruct (HSg (nth q y []) (nth_In _ _ Hqn)) as [_ HT].
  assert (BL : blen c = Z.of_nat qq) by (unfold blen; rewrite Hwh; exact ENs). rewrite BL in *.
  assert (FB : first_bc (o_p c) = Z.of_nat (2 * qq)) by (unfold first_bc; rewrite Hwh; exact EN).
  pose proof (Z.div_pos n (Z.of_nat qq) Hn ltac:(lia)) as Dn.
  assert (Et : t' = (first_bc (o_p c) + Z.of_nat (Z.to_nat (n / Z.of_nat qq)) * p_L (o_p c)) * per) by (rewrite B5, Z2Nat.id by exact Dn; reflexivity).
  assert (Hpq : period (nth q (o_nodes c) (mkNode 1 [] [])) = per) by (apply Hclk, nth_In; lia).
  pose proof (Z.div_mod n (Z.of_nat qq) ltac:(lia)) as DM. pose proof (Z.mod_pos_bound n (Z.of_nat qq) ltac:(lia)) as MB.
  assert (FE : frame_end c q t' = (n / Z.of_nat qq + 1) * Z.of_nat qq).
  { unfold frame_end. rewrite Hwh, Hpq, B5, Z.div_mul by (destruct R8; lia). rewrite FB, EL, EN, ENs. lia. }
  rewrite FE. replace (n - ((n / Z.of_nat qq + 1) * Z.of_nat qq - Z.of_nat qq)) with (n mod Z.of_nat qq) by lia.
  unfold block. rewrite Hwh, ENs, Nat2Z.id. rewrite ScmFacts2.nth_firstn_lt by lia.
  rewrite Et in B2.
  pose proof (block_mixed c y qq T q sched nsens ref per (g q) EN Hq ENs EL Hwh Hh Hfh Hnz HT ltac:(destruct R8; lia) Hpq Hev (fun i => Hfl q i Hqn) m' _ s' r E2 B2 B3 (Z.to_nat (n mod Z.of_nat qq)) ltac:(lia)) as P.
  unfold chunk in P. rewrite P. replace (Z.of_nat (Z.to_nat (n / Z.of_nat qq) * qq + Z.to_nat (n mod Z.of_nat qq))) with n by (rewrite Nat2Z.inj_add, Nat2Z.inj_mul, !Z2Nat.id by lia; lia).
  reflexivity.
Qed.

(** As above with, at node [k], filters that select the channel of neighbour [q]: the
    desired signal estimate of [k] is the fused signal of [q]. *)
Theorem C70_neighbour_output tsort c y nsens qq T ref ordering_of per g k idx q :
  is_argsort tsort -> regular c per T -> consistent c y nsens qq T -> p_whole (o_p c) = true -> p_N (o_p c) = 2 * p_Ns (o_p c) ->
  o_f c = o_h c -> Forall (fun v => v <> 0%R) (o_h c) -> o_comp c = false ->
  (forall k i, (k < length y)%nat -> flat qq (o_ext c k i) (length (nth k y [])) (g k)) ->
  link (map nbrs (o_nodes c)) k idx q -> (forall i, selects qq (o_int c k i) (length (nth k y []) + idx)) ->
  exists sched r, initialize_events tsort (o_p c) (o_nodes c) ordering_of = Ok (sched, []) /\
    online_run c y sched (online_init 0%R c nsens ref T) = Ok r /\
    forall n, (at2 (os_d r) k n = start_gain (o_h c) qq (Z.of_nat n) * mixed y q (g q) (Z.of_nat n) * overlap c qq k sched n)%R.
Proof.
  intros Hs HR Hc Hwh HN2 Hfh Hnz Hco Hfl HL Hint. pose proof HR as [R1 R2 R3 R4 R5 R6 R7 R8 R9].
  destruct (C70_fused_received tsort c y nsens qq T ref ordering_of per g Hs HR Hc Hwh HN2 Hfh Hnz Hfl) as (sched & r & E1 & E2 & HF).
  exists sched, r. split; [exact E1|]. split; [exact E2|]. intros n.
  destruct (sync_schedule tsort (o_p c) (o_nodes c) ordering_of per T Hs R1 R3 R2 (or_introl Hwh) R5 R7 R8) as (sched' & E1' & Hev).
  rewrite E1 in E1'. injection E1' as <-.
  destruct (cs_frame _ _ _ _ _ Hc) as [Hq EN]. destruct (cs_windows _ _ _ _ _ Hc) as (Hh & Hf & Hwl). pose proof (cs_nodes _ _ _ _ _ Hc) as LN.
  assert (Hk : (k < length (o_nodes c))%nat).
  { destruct HL as [l [Hl _]]. rewrite <- (map_length nbrs). apply nth_error_Some. congruence. }
  assert (Lns : length nsens = length (o_nodes c)) by (rewrite (cs_sensors _ _ _ _ _ Hc), map_length; exact LN).
  pose proof (cs_signals _ _ _ _ _ Hc) as HSg. rewrite Forall_forall in HSg. assert (Hky : (k < length y)%nat) by lia. destruct (HSg (nth k y []) (nth_In _ [] Hky)) as [_ HT].
  assert (HE : forall t, In (t, (k, Up)) (flat_events sched) -> 0 <= frame_end c k t <= Z.of_nat T).
  { intros t Ht. apply (se_up _ _ _ _ _ Hev) in Ht. destruct Ht as [_ [j [-> Hj]]]. unfold frame_end. rewrite Hwh.
    rewrite (proj1 (proj2 R8 _ (nth_In _ _ Hk))), Z.div_mul by (destruct R8; lia). destruct R1 as (HN & HNs & HLp).
    pose proof (Z.mul_div_le (Z.of_nat (T - 1)) (p_Ns (o_p c)) HNs). assert (0 <= Z.of_nat j * p_Ns (o_p c)) by nia. lia. }
  destruct (C66_danse_output c y qq T k sched nsens ref r) as (x & Hx & ->); try assumption.
  { split; [exact Hq|]. split; [exact EN|]. split; [apply R1|]. auto. }
  unfold overlap. rewrite <- sum_updates_scale. apply sum_updates_eq. intros m t Hm. destruct (Hx m t Hm) as (s & Es & F). cbv zeta in F.
  destruct (HF m t k idx q Hm HL) as (s' & Es' & HV). rewrite Es in Es'. injection Es' as <-.
  set (e := frame_end c k t) in *. unfold placed. cbv zeta.
  destruct ((e - Z.of_nat (2 * qq) <=? Z.of_nat n) && (Z.of_nat n <? e))%bool eqn:IN; [|ring].
  assert (HI : e - Z.of_nat (2 * qq) <= Z.of_nat n < e) by lia.
  set (j := Z.to_nat (Z.of_nat n - (e - Z.of_nat (2 * qq)))). assert (Hj : (j < 2 * qq)%nat) by lia.
  assert (LZ : (idx < length (nth k (b_z (os_b s)) []))%nat).
  { destruct (le_lt_dec (length (nth k (b_z (os_b s)) [])) idx) as [Hge|]; [exfalso|assumption].
    destruct (as_history c y sched nsens ref T ltac:(destruct R1; lia) (S m) s Es) as (h & H1 & H2 & H3).
    destruct (latest_inv R 0%R (map nbrs (o_nodes c)) (p_N (o_p c)) (p_Ns (o_p c)) ltac:(apply R1) R9 h _ H1 k idx q HL) as (zk & frame & X & Z1 & Z2 & _).
    { rewrite H3. rewrite (updates_S k (flat_events sched) m), Hm. unfold is_update. cbn. rewrite Nat.eqb_refl. lia. }
    cbn [set_last b_z] in Z1. rewrite (nth_error_nth _ _ [] Z1) in Hge. apply nth_error_None in Hge. congruence. }
  set (z := nth k (b_z (os_b s)) []) in *. set (nch := (length (nth k y []) + length z)%nat) in *.
  rewrite (flat_filtered qq (o_h c) _ nch _ _ (x m) Hq (selects_flat qq _ (length (nth k y []) + idx) nch (Hint _)) F j Hj).
  rewrite (sumR_select nch (length (nth k y []) + idx) (fun ch => frame_with y z k (2 * qq) e ch j)) by (unfold nch; lia).
  unfold frame_with. destruct (Nat.ltb_spec (length (nth k y []) + idx) (length (nth k y []))); [lia|].
  replace (length (nth k y []) + idx - length (nth k y []))%nat with idx by lia.
  specialize (HV j Hj). cbv zeta in HV. unfold received_frame in HV. fold z e in HV. rewrite HV.
  replace (e - Z.of_nat (2 * qq) + Z.of_nat j) with (Z.of_nat n) by lia. ring.
Qed.

(** Two nodes, frames of two samples, hops of one,  external filters with gain 2.
    Node 0 listens to node 1: its output is twice the signal of node 1, but for the first
    sample. *)
Definition c70_cfg : ocfg :=
  mkO (mkP 2 1 1 true false false false false 0 0) (o_nodes c68_cfg)
      [4 / 5; 3 / 5]%R [4 / 5; 3 / 5]%R true false false 3 false
      (fun k i => [[cr 2; cr 2]]) (o_int c68_cfg) (o_loc c68_cfg) (o_est c68_cfg).
Lemma c70_regular : regular c70_cfg 1 6.
Proof. destruct c68_regular. constructor; try assumption; try reflexivity; try discriminate. Qed.
Lemma c70_consistent : consistent c70_cfg c68_y [1; 1]%nat 1 6.
Proof.
  destruct c68_consistent. constructor; try assumption.
  intros [|[|k]] i Hk; [| |cbn in Hk; lia]; split; repeat constructor.
Qed.
Local Ltac compute_z :=
  repeat match goal with
  | |- context [if ?b then _ else _] => let b' := eval vm_compute in b in change b with b'; cbv iota
  | |- context [Z.to_nat ?z] => let n := eval vm_compute in (Z.to_nat z) in change (Z.to_nat z) with n
  end.
Example C70_ex : exists sched r,
  initialize_events tsort0 (o_p c70_cfg) (o_nodes c70_cfg) (fun _ => []) = Ok (sched, []) /\
  online_run c70_cfg c68_y sched (online_init 0%R c70_cfg [1; 1]%nat 0 6) = Ok r /\
  at2 (os_d r) 0 0 = (16 / 25 * (2 * 7))%R /\ at2 (os_d r) 0 1 = (2 * 8)%R.
Proof.
  destruct (C70_neighbour_output tsort0 c70_cfg c68_y [1; 1]%nat 1 6 0 (fun _ => []) 1 (fun _ _ => 2%R) 0 0 1 tsort0_ok c70_regular c70_consistent eq_refl eq_refl eq_refl) as (sched & r & E1 & E2 & H).
  - repeat constructor; lra.
  - reflexivity.
  - intros k i Hk [|ch] [|[|b]] Hc Hb; try reflexivity; try lia; destruct k as [|[|k]]; cbn in Hk, Hc; lia.
  - exists [1%nat]. split; reflexivity.
  - intros i [|[|[|ch]]] [|[|b]] Hb; try reflexivity; lia.
  - exists sched, r. split; [exact E1|]. split; [exact E2|]. vm_compute in E1. injection E1 as <-.
    split; rewrite H; unfold overlap, sum_updates, placed, frame_end, start_gain, mixed, sample; cbn; rewrite ?Z.div_1_r; compute_z; cbn; compute_z; cbn; try (change (Pos.to_nat 1) with 1%nat; cbv iota); lra.
Qed.
(** The second broadcast of node 0, at sample 3. *)
Example C70_ex_chunks : exists sched s x x',
  reached c70_cfg c68_y sched (online_init 0%R c70_cfg [1; 1]%nat 0 6) 5 = Ok s /\
  fused_frame c70_cfg c68_y 1 0 1 3 x /\ fused_frame c70_cfg c68_y 1 0 0 2 x' /\
  (nth 1 (chunk s 0) 0 = 3 / 5 * x 1%nat)%R.
Proof.
  destruct C70_ex as (sched & r & E1 & E2 & _). vm_compute in E1. injection E1 as <-.
  destruct (C70_chunks_sent c70_cfg c68_y 1 6 0 _ [1; 1]%nat 0 4 3 r eq_refl ltac:(lia) eq_refl eq_refl eq_refl ltac:(repeat constructor) E2 eq_refl ltac:(vm_compute; intuition discriminate)) as (s & x & A & B & _ & D & _ & F).
  destruct (F 0%nat 2 ltac:(lia) eq_refl) as (s' & x' & _ & B' & _).
  - intros m te Hm. do 4 (destruct m as [|m]; [try lia; cbn; now intros [= <-]|]). lia.
  - vm_compute. intuition discriminate.
  - eexists _, s, x, x'. split; [exact A|]. split; [exact B|]. split; [exact B'|]. apply D. lia.
Qed.

Print Assumptions C70_chunks_sent.
Print Assumptions C70_fused_received.
Print Assumptions C70_neighbour_output.
