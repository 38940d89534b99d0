(** Batch DANSE and TI-DANSE: what the filters computed in a run are worth.
    Properties C62-C64. *)
From Verif Require Import Base Cx CxFacts Scm ScmSpec ScmFacts Ext Batch BatchSig BatchSigSpec BatchSigFacts BatchSigFacts2 BatchSigFacts3 BatchSigFacts4 BatchSigFacts5 BatchSigFacts6 BatchSigEx WolaFacts.
From Coq Require Import Reals Lra.
Local Open Scope R_scope.

(** C62.  Sequential updating, any number of nodes, sensors and iterations, any
    neighbour lists, any signals, DANSE or TI-DANSE, any of the broadcast modes, any
    initial filters.  The run completes.  At iteration [j], and any frequency at
    which the correlation matrix of the updating node [k] is inverted, the filter
    that results for node [k], over all the sensors of the network, has an estimated
    error that is
    - the smallest among the filters node [k] could have chosen (including its old
      one), the signals it receives being given;
    - at most that of any filter on the sensors of node [k] alone (such as the local
      one);
    - at least that of the centralised filter (with the same VAD at all nodes). *)
Theorem C62_sequential_update_optimal :
  forall nn ms ys vads nbrs ti ref inv mode T iters bs,
    data_ok nn ms ys vads ref T -> (forall k, (k < nn)%nat -> good_nbrs nn nbrs k) ->
    length bs = nn -> (0 < nn)%nat -> ready iters bs ->
    exists bs', danse_seq nn ms ys vads nbrs ti ref inv mode iters 0 bs = Ok bs' /\
    forall j f k, (j < iters)%nat -> k = (j mod nn)%nat ->
      let a := fst (tilde_covmats nn ms ys vads nbrs ti (ext_filters nn bs' j) k) f in
      is_inverse (dim ms nbrs ti k) a (inv (dim ms nbrs ti k) a) ->
      let err := error nn ms (fun q t m => frame_at (ys q) t f m) (vads k) T k ref in
      let via w := netwide ti ms nbrs k w (fun q => ext_filter bs' j q f) in
      let new := via (int_filter bs' (S j) k f) in
      (forall w, err new <= err (via w)) /\
      (forall u, own_only k u -> err new <= err u) /\
      (forall v, (forall q, (q < nn)%nat -> vads q = v) ->
         let c := fst (centr_covmats nn ms ys vads) f in
         is_inverse (offset ms nn) c (inv (offset ms nn) c) ->
         err (fun q m => centr_w nn ms ys vads ref inv k f (offset ms q + m)%nat) <= err new).
Proof.
  intros nn ms ys vads nbrs ti ref inv mode T iters bs Hd Hg Hn H0 Hr.
  destruct (seq_run_steps nn ms ys vads nbrs ti ref inv mode iters bs Hn Hr H0) as (bs' & H & Hst). exists bs'. split; [exact H|].
  intros j f k Hj Hk. cbv zeta. intros Hi.
  assert (Hk' : (k < nn)%nat) by (subst k; apply Nat.mod_upper_bound; lia).
  apply (optimal_all nn ms ys vads nbrs ti ref T inv mode Hd Hg iters bs _ bs' f j k Hst Hj Hk'); [|exact Hi].
  cbv beta. rewrite Hk. apply Nat.eqb_refl.
Qed.

(** The same for simultaneous updating (without relaxation): the comparison is for
    the signals node [k] received at that iteration, while the others change theirs. *)
Theorem C62_simultaneous_update_optimal :
  forall nn ms ys vads nbrs ti ref inv mode T iters bs,
    data_ok nn ms ys vads ref T -> (forall k, (k < nn)%nat -> good_nbrs nn nbrs k) ->
    length bs = nn -> ready iters bs ->
    exists bs', danse_sim nn ms ys vads nbrs ti ref inv mode iters bs = Ok bs' /\
    forall j f k, (j < iters)%nat -> (k < nn)%nat ->
      let a := fst (tilde_covmats nn ms ys vads nbrs ti (ext_filters nn bs' j) k) f in
      is_inverse (dim ms nbrs ti k) a (inv (dim ms nbrs ti k) a) ->
      let err := error nn ms (fun q t m => frame_at (ys q) t f m) (vads k) T k ref in
      let via w := netwide ti ms nbrs k w (fun q => ext_filter bs' j q f) in
      let new := via (int_filter bs' (S j) k f) in
      (forall w, err new <= err (via w)) /\
      (forall u, own_only k u -> err new <= err u) /\
      (forall v, (forall q, (q < nn)%nat -> vads q = v) ->
         let c := fst (centr_covmats nn ms ys vads) f in
         is_inverse (offset ms nn) c (inv (offset ms nn) c) ->
         err (fun q m => centr_w nn ms ys vads ref inv k f (offset ms q + m)%nat) <= err new).
Proof.
  intros nn ms ys vads nbrs ti ref inv mode T iters bs Hd Hg Hn Hr.
  destruct (sim_run_steps nn ms ys vads nbrs ti ref inv mode iters bs Hn Hr) as (bs' & H & Hst). exists bs'. split; [exact H|].
  intros j f k Hj Hk. cbv zeta. intros Hi.
  apply (optimal_all nn ms ys vads nbrs ti ref T inv mode Hd Hg iters bs _ bs' f j k Hst Hj Hk); [reflexivity | exact Hi].
Qed.

(** C63.  One desired source, the same VAD at all nodes, sequential updating, fully
    connected network or TI-DANSE.  From one update to the next, though by another
    node and for another reference sensor, the error relative to the power of the
    source at the reference sensor does not grow; at no time is it below that of
    the centralised filter of any node. *)
Theorem C63_error_never_grows :
  forall nn ms ys vads nbrs ti ref inv mode T iters bs v f p s,
    data_ok nn ms ys vads ref T -> (forall k, (k < nn)%nat -> good_nbrs nn nbrs k) ->
    length bs = nn -> (2 <= nn)%nat -> ready iters bs ->
    (ti = false -> forall k, (k < nn)%nat -> nbrs k = others nn k) ->
    (forall k, (k < nn)%nat -> vads k = v) ->
    (* one source, heard at all the reference sensors *)
    single_source nn ms (fun q t m => frame_at (ys q) t f m) v T p s -> (forall k, (k < nn)%nat -> s k ref <> czero) ->
    (* the nodes send what their filters say *)
    mode <> RefOnly ->
    (forall k m, (k < nn)%nat -> (m <= ms k)%nat -> ext_filter bs 0 k f m = int_filter bs 0 k f m) ->
    (mode = NoSingleFusion -> ti = false /\ forall k, (k < nn)%nat -> ms k = 1%nat -> ext_filter bs 0 k f 0%nat <> czero) ->
    exists bs', danse_seq nn ms ys vads nbrs ti ref inv mode iters 0 bs = Ok bs' /\
    let node j := (j mod nn)%nat in
    let rel j := error nn ms (fun q t m => frame_at (ys q) t f m) v T (node j) ref
      (netwide ti ms nbrs (node j) (int_filter bs' (S j) (node j) f) (fun q => ext_filter bs' j q f)) / sq (s (node j) ref) in
    (* the matrices met are inverted; TI-DANSE divides by a coefficient *)
    (forall j, (j < iters)%nat ->
       let a := fst (tilde_covmats nn ms ys vads nbrs ti (ext_filters nn bs' j) (node j)) f in
       is_inverse (dim ms nbrs ti (node j)) a (inv (dim ms nbrs ti (node j)) a) /\
       (ti = true -> int_filter bs' (S j) (node j) f (ms (node j)) <> czero)) ->
    (forall i j, (i <= j < iters)%nat -> rel j <= rel i) /\
    (let c := fst (centr_covmats nn ms ys vads) f in
     is_inverse (offset ms nn) c (inv (offset ms nn) c) ->
     forall j k, (j < iters)%nat -> (k < nn)%nat ->
       error nn ms (fun q t m => frame_at (ys q) t f m) v T k ref (fun q m => centr_w nn ms ys vads ref inv k f (offset ms q + m)%nat) / sq (s k ref) <= rel j).
Proof.
  intros nn ms ys vads nbrs ti ref inv mode T iters bs v f p s Hd Hg Hn H2 Hr Hfc Hv Hs Hs0 Hm H0 Hns.
  destruct (seq_run_steps nn ms ys vads nbrs ti ref inv mode iters bs Hn Hr ltac:(lia)) as (bs' & H & Hst). exists bs'. split; [exact H|].
  cbv zeta. intros Hi. split.
  - intros i j Hij. induction j as [|j IH]; [replace i with 0%nat by lia; apply Rle_refl|].
    destruct (Nat.eq_dec i (S j)) as [->|Hne]; [apply Rle_refl|]. apply Rle_trans with (2 := IH ltac:(lia)). clear IH.
    assert (B1 := Nat.mod_upper_bound j nn ltac:(lia)). assert (B2 := Nat.mod_upper_bound (S j) nn ltac:(lia)).
    apply (run_decrease nn ms ys vads nbrs ti ref T inv Hd Hg iters _ bs bs' mode Hst f v Hv Hfc p s Hs Hs0 Hm); try assumption; try lia.
    + intros E. assert (A : (S j mod nn = (j mod nn + 1) mod nn)%nat) by (rewrite Nat.add_mod_idemp_l by lia; f_equal; lia). rewrite <- E in A.
      destruct (Nat.eq_dec (j mod nn + 1) nn) as [E'|E'].
      * rewrite E', Nat.mod_same in A by lia. rewrite A in E'. clear - E' H2. lia.
      * rewrite (Nat.mod_small (j mod nn + 1)) in A by lia. lia.
    + intros Ht. split; [destruct mode; [contradiction | destruct (Hns eq_refl) as [A _]; congruence | reflexivity]|]. apply (proj2 (Hi j ltac:(lia)) Ht).
    + intros A B. apply (proj2 (Hns A) _ B1 B).
    + apply (proj1 (Hi (S j) ltac:(lia))).
  - intros Hci j k Hj Hk. assert (B1 := Nat.mod_upper_bound j nn ltac:(lia)).
    rewrite <- (error_scaled nn ms _ v T ref p s Hs (fun k Hk => proj1 (Hd k Hk)) k (j mod nn) _ Hk B1 (Hs0 _ B1) (Hs0 k Hk)).
    apply Rmult_le_compat_r; [left; apply Rinv_0_lt_compat, sq_pos, Hs0; exact Hk|].
    apply (centr_optimal nn ms ys vads nbrs ref T inv Hd v Hv k f _ Hk Hci).
Qed.

(** C64.  Under the same conditions, for sequential and simultaneous updating: if the
    nodes' filters are (multiples of) the parts of the centralised filters that
    concern their own sensors, then every update of the run gives node [k] exactly
    the centralised filter, over all sensors of the network.  For TI-DANSE, the
    coefficients by which the filters are divided must be in the ratio of the source
    at the reference sensors. *)
Theorem C64_centralised_filter_kept :
  forall nn ms ys vads nbrs ti ref inv mode T iters bs v f p s g lx lw,
    data_ok nn ms ys vads ref T -> (forall k, (k < nn)%nat -> good_nbrs nn nbrs k) ->
    length bs = nn -> (0 < nn)%nat -> ready iters bs ->
    (ti = false -> forall k, (k < nn)%nat -> nbrs k = others nn k) ->
    (forall k, (k < nn)%nat -> vads k = v) ->
    single_source nn ms (fun q t m => frame_at (ys q) t f m) v T p s -> (forall k, (k < nn)%nat -> s k ref <> czero) ->
    mode <> RefOnly ->
    let c := fst (centr_covmats nn ms ys vads) f in
    is_inverse (offset ms nn) c (inv (offset ms nn) c) ->
    let at_centr (l : nat -> cx) (w : nat -> coefs) := forall q, (q < nn)%nat -> l q <> czero /\
      (forall m, (m < ms q)%nat -> w q f m = (l q * centr_w nn ms ys vads ref inv q f (offset ms q + m)%nat)%cx) /\
      (ti = true -> w q f (ms q) = (l q * (conj (s q ref) * g))%cx) in
    g <> czero -> at_centr lx (ext_filter bs 0) -> at_centr lw (int_filter bs 0) ->
    forall seq : bool, exists bs',
    (if seq then danse_seq nn ms ys vads nbrs ti ref inv mode iters 0 bs else danse_sim nn ms ys vads nbrs ti ref inv mode iters bs) = Ok bs' /\
    let updates j k := seq = true -> k = (j mod nn)%nat in
    ((forall j k, (j < iters)%nat -> (k < nn)%nat -> updates j k ->
       let a := fst (tilde_covmats nn ms ys vads nbrs ti (ext_filters nn bs' j) k) f in
       is_inverse (dim ms nbrs ti k) a (inv (dim ms nbrs ti k) a)) ->
     forall j k q m, (j < iters)%nat -> (k < nn)%nat -> updates j k -> (q < nn)%nat -> (m < ms q)%nat ->
       netwide ti ms nbrs k (int_filter bs' (S j) k f) (fun q => ext_filter bs' j q f) q m =
       centr_w nn ms ys vads ref inv k f (offset ms q + m)%nat).
Proof.
  intros nn ms ys vads nbrs ti ref inv mode T iters bs v f p s g lx lw Hd Hg Hn H0 Hr Hfc Hv Hs Hs0 Hm. cbv zeta. intros Hci Hg0 Hx Hw seq.
  assert (R : exists bs', (if seq then danse_seq nn ms ys vads nbrs ti ref inv mode iters 0 bs else danse_sim nn ms ys vads nbrs ti ref inv mode iters bs) = Ok bs' /\
    steps (tilde_covmats nn ms ys vads nbrs ti) (new_w ms nbrs ti ref inv) (bext_rule ms ref mode) nn iters (fun j k => if seq then Nat.eqb (j mod nn) k else true) bs bs').
  { destruct seq; [apply (seq_run_steps nn ms ys vads nbrs ti ref inv mode iters bs Hn Hr H0) | apply (sim_run_steps nn ms ys vads nbrs ti ref inv mode iters bs Hn Hr)]. }
  destruct R as (bs' & H & Hst). exists bs'. split; [exact H|]. intros Hi j k q m Hj Hk Hu Hq Hmq.
  apply (run_fixed_filter nn ms ys vads nbrs ti ref T inv Hd Hg iters _ bs bs' mode Hst f v Hv Hfc p s Hs Hs0 Hm g Hg0 Hci) with (lx := lx) (lw := lw); auto.
  - intros j' k' Hj' Hk' Hu'. apply Hi; auto. intros ->. symmetry. apply Nat.eqb_eq. exact Hu'.
  - cbv beta. destruct seq; [|reflexivity]. rewrite <- (Hu eq_refl). apply Nat.eqb_refl.
Qed.

(** ** Examples *)
(** Two single-sensor nodes, a source heard equally by both, six frames (BatchSigEx.v),
    all coefficients initially one: the conditions of C62 and C63 hold for any number
    of iterations, for DANSE and TI-DANSE. *)
Definition ex_ones : coefs := fun _ _ => cone.
Lemma ex_ones_nz iters : no_zero (int_filter (ex_bs ex_ones iters) 0) /\ no_zero (ext_filter (ex_bs ex_ones iters) 0).
Proof.
  assert (A : cone <> czero) by (apply cr_ne; lra).
  split; intros q Hq; destruct (ex_init ex_ones iters q Hq) as [E1 E2]; rewrite ?E1, ?E2; auto.
Qed.
(** C62.  The local filter is the best among the filters on the sensors of the node. *)
Theorem C62_local_filter_optimal :
  forall nn ms ys vads ref inv T k f,
    data_ok nn ms ys vads ref T -> (k < nn)%nat ->
    let a := fst (local_covmats ys vads k) f in
    is_inverse (ms k) a (inv (ms k) a) ->
    let err := error nn ms (fun q t m => frame_at (ys q) t f m) (vads k) T k ref in
    forall u, own_only k u ->
      err (fun q m => if Nat.eqb q k then local_w ms ys vads ref inv k f m else czero) <= err u.
Proof.
  intros nn ms ys vads ref inv T k f Hd Hk a Hi err u Hu. destruct (Hd k Hk) as (Hr & HT & Hv & H1 & H0).
  assert (EY : ys k = map (frame_at (ys k)) (seq 0 T)).
  { rewrite <- HT. apply nth_ext with (d := fun _ _ => czero) (d' := fun _ _ => czero); [now rewrite map_length, seq_length|].
    intros t Ht. symmetry. exact (WolaFacts.nth_map_seq (frame_at (ys k)) (fun _ _ => czero) (length (ys k)) t Ht). }
  assert (S := update_w_solves (ms k) ref _ (fst (local_covmats ys vads k) f) (snd (local_covmats ys vads k) f) Hr Hi).
  assert (E := batch_rmat (frame_at (ys k)) (vads k) T Hv H1 H0 f). rewrite <- EY in E.
  assert (S' : solves (ms k) (rmat (vads k) T (fun t c => frame_at (ys k) t f c) true) (local_w ms ys vads ref inv k f)
     (fun i => (rmat (vads k) T (fun t c => frame_at (ys k) t f c) true i ref - rmat (vads k) T (fun t c => frame_at (ys k) t f c) false i ref)%cx)).
  { refine (solves_ext _ _ _ _ _ _ _ _ S).
    - intros i j _ _. apply (E i j).
    - intros i _. unfold local_covmats. destruct (E i ref) as [-> ->]. reflexivity. }
  assert (O : forall w, own_only k w -> err w = est_error (vads k) T (fout (ms k) (fun t c => frame_at (ys k) t f c) (w k)) (fun t => frame_at (ys k) t f ref)).
  { intros w Hw. unfold err, error. apply est_error_eq. intros t _. unfold output, fout.
    rewrite (csum_single nn _ k Hk); [reflexivity|]. intros q _ Hq. rewrite (csum_ext _ _ (fun _ => czero)); [apply csum_0|].
    intros m _. rewrite (Hw q m Hq). apply cx_eq; cbn; ring. }
  rewrite (O u Hu), O.
  - rewrite Nat.eqb_refl. apply (normal_minimises (vads k) T (ms k) (fun t c => frame_at (ys k) t f c) ref). exact S'.
  - intros q m Hq. destruct (Nat.eqb_spec q k); [contradiction|reflexivity].
Qed.

Example C62_ex_hypotheses : forall ti iters,
  data_ok 2 ex_ms ex_ys ex_vads 0 6 /\ (forall k, (k < 2)%nat -> good_nbrs 2 ex_nbrs k) /\
  length (ex_bs ex_ones iters) = 2%nat /\ ready iters (ex_bs ex_ones iters) /\
  forall bs', danse_seq 2 ex_ms ex_ys ex_vads ex_nbrs ti 0 inv2 Fusion iters 0 (ex_bs ex_ones iters) = Ok bs' ->
  forall j, (j < iters)%nat -> let k := (j mod 2)%nat in
    let a := fst (tilde_covmats 2 ex_ms ex_ys ex_vads ex_nbrs ti (ext_filters 2 bs' j) k) 0%nat in
    is_inverse (dim ex_ms ex_nbrs ti k) a (inv2 (dim ex_ms ex_nbrs ti k) a) /\ (ti = true -> int_filter bs' (S j) k 0%nat (ex_ms k) <> czero).
Proof.
  intros ti iters. split; [exact ex_data|]. split; [exact ex_good|]. split; [reflexivity|]. split; [apply ex_ready|].
  intros bs' H j Hj. cbv zeta. assert (Hk : (j mod 2 < 2)%nat) by (apply Nat.mod_upper_bound; lia).
  destruct (seq_steps _ _ _ 2 iters _ bs' (ex_len ex_ones iters) ltac:(lia) (ex_ready ex_ones iters) H) as [_ Hst].
  destruct (ex_ones_nz iters) as [N1 N2]. assert (N := ex_no_zero ti iters _ _ _ N1 N2 Hst). rewrite ex_dim by exact Hk. split.
  - apply ex_inverse; [exact Hk|]. apply ex_rho_ne; [lia|]. apply N. lia.
  - intros _. apply (proj1 (N (S j) ltac:(lia))). exact Hk.
Qed.
Example C62_ex_simultaneous : forall ti iters bs',
  danse_sim 2 ex_ms ex_ys ex_vads ex_nbrs ti 0 inv2 Fusion iters (ex_bs ex_ones iters) = Ok bs' ->
  forall j k, (j < iters)%nat -> (k < 2)%nat ->
    let a := fst (tilde_covmats 2 ex_ms ex_ys ex_vads ex_nbrs ti (ext_filters 2 bs' j) k) 0%nat in
    is_inverse (dim ex_ms ex_nbrs ti k) a (inv2 (dim ex_ms ex_nbrs ti k) a).
Proof.
  intros ti iters bs' H j k Hj Hk. cbv zeta.
  destruct (sim_steps _ _ _ 2 iters _ bs' (ex_len ex_ones iters) (ex_ready ex_ones iters) H) as [_ Hst].
  destruct (ex_ones_nz iters) as [N1 N2]. assert (N := ex_no_zero ti iters _ _ _ N1 N2 Hst). rewrite ex_dim by exact Hk.
  apply ex_inverse; [exact Hk|]. apply ex_rho_ne; [lia|]. apply N. lia.
Qed.
Example C62_ex_local : forall k, (k < 2)%nat ->
  let a := fst (local_covmats ex_ys ex_vads k) 0%nat in
  a 0%nat 0%nat = cr 2 /\ is_inverse (ex_ms k) a (fun _ _ => cinv (a 0%nat 0%nat)).
Proof.
  intros k Hk a.
  assert (A : a 0%nat 0%nat = cr 2).
  { unfold a, local_covmats. change (ex_vads k) with ex_v. replace (ex_ys k) with (map (frame_at (ex_ys k)) (seq 0 6)) by (destruct k as [|[|k]]; reflexivity).
    destruct (batch_rmat (frame_at (ex_ys k)) ex_v 6 (le_n _) ltac:(apply Nat.ltb_lt; reflexivity) ltac:(apply Nat.ltb_lt; reflexivity) 0 0 0) as [-> _].
    unfold rmat. destruct k as [|[|k]]; [| |lia]; ex_num. }
  split; [exact A|]. assert (N : a 0%nat 0%nat <> czero) by (rewrite A; apply cr_ne; lra).
  unfold ex_ms, is_inverse, mat_eq, mmul, ident.
  split; intros i j Hi Hj; destruct i as [|i]; try lia; destruct j as [|j]; try lia; cbn [csum Nat.eqb].
  - rewrite (cinv_r _ N). apply cx_eq; cbn; ring.
  - transitivity (a 0%nat 0%nat * cinv (a 0%nat 0%nat))%cx; [apply cx_eq; cbn; ring|apply (cinv_r _ N)].
Qed.
Example C63_ex_hypotheses : forall iters,
  (forall k, (k < 2)%nat -> ex_nbrs k = others 2 k) /\ (forall k, (k < 2)%nat -> ex_vads k = ex_v) /\
  single_source 2 ex_ms (fun q t m => frame_at (ex_ys q) t 0%nat m) ex_v 6 1 (fun _ _ => cone) /\ cone <> czero /\
  (forall k m, (k < 2)%nat -> (m <= ex_ms k)%nat -> ext_filter (ex_bs ex_ones iters) 0 k 0%nat m = int_filter (ex_bs ex_ones iters) 0 k 0%nat m) /\
  (let c := fst (centr_covmats 2 ex_ms ex_ys ex_vads) 0%nat in is_inverse (offset ex_ms 2) c (inv2 (offset ex_ms 2) c)).
Proof.
  intros iters. split; [reflexivity|]. split; [reflexivity|]. split; [exact ex_source|]. split; [apply cr_ne; lra|]. split.
  - intros k m Hk _. destruct (ex_init ex_ones iters k Hk) as [-> ->]. reflexivity.
  - exact (proj1 ex_centr).
Qed.
(** The centralised filter has the coefficients [1/3, 1/3]. *)
Definition ex_third : coefs := fun _ _ => cr (/ 3).
Example C64_ex_hypotheses : forall ti iters,
  let at_centr (l : nat -> cx) (w : nat -> coefs) := forall q, (q < 2)%nat -> l q <> czero /\
    (forall m, (m < ex_ms q)%nat -> w q 0%nat m = (l q * centr_w 2 ex_ms ex_ys ex_vads 0 inv2 q 0%nat (offset ex_ms q + m)%nat)%cx) /\
    (ti = true -> w q 0%nat (ex_ms q) = (l q * (conj cone * cr (/ 3)))%cx) in
  at_centr (fun _ => cone) (ext_filter (ex_bs ex_third iters) 0) /\ at_centr (fun _ => cone) (int_filter (ex_bs ex_third iters) 0) /\
  cr (/ 3) <> czero /\
  forall bs', danse_sim 2 ex_ms ex_ys ex_vads ex_nbrs ti 0 inv2 Fusion iters (ex_bs ex_third iters) = Ok bs' ->
  forall j k, (j < iters)%nat -> (k < 2)%nat ->
    let a := fst (tilde_covmats 2 ex_ms ex_ys ex_vads ex_nbrs ti (ext_filters 2 bs' j) k) 0%nat in
    is_inverse (dim ex_ms ex_nbrs ti k) a (inv2 (dim ex_ms ex_nbrs ti k) a).
Proof.
  intros ti iters. cbv zeta. assert (A : cr (/ 3) <> czero) by (apply cr_ne; lra).
  assert (B : forall q, (q < 2)%nat -> cone <> czero /\
    (forall m, (m < ex_ms q)%nat -> ex_third 0%nat m = (cone * centr_w 2 ex_ms ex_ys ex_vads 0 inv2 q 0%nat (offset ex_ms q + m)%nat)%cx) /\
    (ti = true -> ex_third 0%nat (ex_ms q) = (cone * (conj cone * cr (/ 3)))%cx)).
  { intros q Hq. split; [apply cr_ne; lra|]. split.
    - intros m Hm. unfold ex_ms in Hm. rewrite (proj2 ex_centr q); [unfold ex_third; ring | exact Hq |]. destruct q as [|[|q]]; [| |lia]; replace m with 0%nat by lia; cbn; lia.
    - intros _. unfold ex_third. apply cx_eq; cbn; ring. }
  split; [intros q Hq; rewrite (proj2 (ex_init ex_third iters q Hq)); apply B; exact Hq|].
  split; [intros q Hq; rewrite (proj1 (ex_init ex_third iters q Hq)); apply B; exact Hq|].
  split; [exact A|]. intros bs' H j k Hj Hk.
  destruct (sim_steps _ _ _ 2 iters _ bs' (ex_len ex_third iters) (ex_ready ex_third iters) H) as [_ Hst].
  assert (N1 : no_zero (int_filter (ex_bs ex_third iters) 0)) by (intros q Hq; rewrite (proj1 (ex_init ex_third iters q Hq)); split; exact A).
  assert (N2 : no_zero (ext_filter (ex_bs ex_third iters) 0)) by (intros q Hq; rewrite (proj2 (ex_init ex_third iters q Hq)); split; exact A).
  assert (N := ex_no_zero ti iters _ _ _ N1 N2 Hst). rewrite ex_dim by exact Hk.
  apply ex_inverse; [exact Hk|]. apply ex_rho_ne; [lia|]. apply N. lia.
Qed.

Print Assumptions C62_sequential_update_optimal.
Print Assumptions C62_simultaneous_update_optimal.
Print Assumptions C62_local_filter_optimal.
Print Assumptions C63_error_never_grows.
Print Assumptions C64_centralised_filter_kept.
