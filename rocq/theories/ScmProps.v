(** C27, C29, C31, C57, C61: correlation matrices, filter formulas, external filters. *)
From Verif Require Import Base BaseFacts Buffers Cx CxFacts Filt FiltSpec Scm ScmSpec ScmFacts ScmFacts2 Batch Ext ExtSpec ExtFacts.
From Coq Require Import Reals Lra.
Open Scope R_scope.

(** ** C27
    For every averaging factor in [0, 1], every sequence of frames and VAD
    decisions and any validity test and filter formula: if the matrices of an
    estimator are Hermitian positive semi-definite at the start, they are at the
    end of the run. *)
Theorem C27_hermitian_psd :
  forall beta valid (W : Type) (solve : nat -> tens -> tens -> W) p us n0 n wh e0 d,
    0 <= beta <= 1 -> filt_run outer (avg beta) valid solve p us n0 = Ok n -> estimator wh n0 = Some e0 ->
    hermitian d (e_ryy e0) -> psd d (e_ryy e0) -> hermitian d (e_rnn e0) -> psd d (e_rnn e0) ->
    exists e, estimator wh n = Some e /\ hermitian d (e_ryy e) /\ psd d (e_ryy e) /\ hermitian d (e_rnn e) /\ psd d (e_rnn e).
Proof.
  intros beta valid W solve p us n0 n wh e0 d Hb H He A B C D.
  destruct (run_good beta valid W solve p Hb d us n0 n wh e0 H He ltac:(split; assumption) ltac:(split; assumption)) as (e & H1 & [H2 H3] & [H4 H5]).
  exists e. auto.
Qed.

(** The batch estimates are Hermitian positive semi-definite too, whenever there
    are frames to average over. *)
Theorem C27_batch_hermitian_psd :
  forall ys vad ryy rnn d, covmats_batch ys vad = Ok (Some ryy, Some rnn) ->
    hermitian d ryy /\ psd d ryy /\ hermitian d rnn /\ psd d rnn.
Proof.
  intros ys vad ryy rnn d H. unfold covmats_batch in H. destruct (Nat.eqb _ _) in H; [|discriminate].
  injection H as H1 H2. apply (mean_outer_ok d) in H1, H2. destruct H1, H2. auto.
Qed.

(** ** C31
    The plain filter update solves [Ryy w = (Ryy - Rnn) e_ref] whenever [Ryy] has
    an inverse, and is the only solution. *)
Theorem C31_normal_equations :
  forall n ref ryy rnn inv, (ref < n)%nat -> is_inverse n ryy inv ->
    solves n ryy (update_w n ref inv ryy rnn) (fun i => ryy i ref - rnn i ref)%cx /\
    forall w, solves n ryy w (fun i => ryy i ref - rnn i ref)%cx -> forall i, (i < n)%nat -> w i = update_w n ref inv ryy rnn i.
Proof.
  intros n ref ryy rnn inv Hr Hi. assert (H := update_w_solves n ref inv ryy rnn Hr Hi). split; [exact H|].
  intros w Hw i Hlt. apply (solution_unique n ryy inv w _ _ Hi Hw H i Hlt).
Qed.

(** Scaling both matrices by the same non-zero factor does not change the filter. *)
Theorem C31_scale_invariance :
  forall n ref ryy rnn inv c inv', (ref < n)%nat -> c <> czero -> is_inverse n ryy inv -> is_inverse n (fun i j => c * ryy i j)%cx inv' ->
    forall i, (i < n)%nat ->
      update_w n ref inv' (fun i j => c * ryy i j)%cx (fun i j => c * rnn i j)%cx i = update_w n ref inv ryy rnn i.
Proof.
  intros n ref ryy rnn inv c inv' Hr Hc H1 H2 i Hi.
  apply (solution_unique n _ inv' _ _ (fun i => c * (ryy i ref - rnn i ref))%cx H2); [| |exact Hi].
  - intros k Hk. rewrite (update_w_solves n ref inv' _ (fun i j => c * rnn i j)%cx Hr H2 k Hk). ring.
  - apply solves_scale; [exact Hc|]. apply update_w_solves; assumption.
Qed.

(** ** C57
    The GEVD-based update with full rank computes the plain update, for any
    generalised eigenvalue decomposition with non-zero eigenvalues. *)
Theorem C57_gevd_full_rank :
  forall n ref sig x q inv ryy rnn, (ref < n)%nat -> gevd n ryy rnn sig x -> is_inverse n (mherm x) q ->
    (forall i, (i < n)%nat -> sig i <> 0) -> is_inverse n ryy inv ->
    forall i, (i < n)%nat -> update_w_gevd n ref n sig x q i = update_w n ref inv ryy rnn i.
Proof. intros. eapply gevd_full_rank; eauto. Qed.

(** With rank [r] the filter is a combination of the [r] first eigenvectors. *)
Theorem C57_gevd_span :
  forall n ref rank sig x q, (rank <= n)%nat ->
    exists c : nat -> cx, forall i, (i < n)%nat -> update_w_gevd n ref rank sig x q i = csum rank (fun r => x i r * c r)%cx.
Proof. intros. apply gevd_span. assumption. Qed.

(** ** C61
    After any run the two matrices of an estimator are the exponentially weighted
    averages of the correlations of exactly the frames with and without speech, in
    the order of the run... *)
Theorem C61_online_weights :
  forall beta valid (W : Type) (solve : nat -> tens -> tens -> W) p us n0 n wh e0,
    filt_run outer (avg beta) valid solve p us n0 = Ok n -> estimator wh n0 = Some e0 -> f_use1st p = false ->
    exists e, estimator wh n = Some e /\
      forall f i j, e_ryy e f i j = weighted beta (e_ryy e0) (pick wh true us) f i j /\
                    e_rnn e f i j = weighted beta (e_rnn e0) (pick wh false us) f i j.
Proof. intros. eapply run_weighted; eauto. Qed.

(** ...where the first frame of each kind replaces the initial matrix if
    [use1stFrameAsBasis] is set (other than for the centralised estimator)... *)
Theorem C61_first_frame_as_basis :
  forall beta valid (W : Type) (solve : nat -> tens -> tens -> W) p us n0 n wh e0,
    fresh n0 -> filt_run outer (avg beta) valid solve p us n0 = Ok n -> estimator wh n0 = Some e0 -> f_use1st p = true -> wh <> Centr ->
    exists e, estimator wh n = Some e /\
      forall f i j, e_ryy e f i j = basis beta (e_ryy e0) (pick wh true us) f i j /\
                    e_rnn e f i j = basis beta (e_rnn e0) (pick wh false us) f i j.
Proof. intros. eapply run_basis; eauto. Qed.

(** ...and the weights add up to one. *)
Theorem C61_weights_total : forall beta m, beta ^ m + sum_n m (fun r => (1 - beta) * beta ^ (m - 1 - r)) = 1.
Proof. exact weights_total. Qed.

(** In batch mode the matrices are the plain averages over the frames of each
    kind; decisions after the last frame are ignored, and a VAD with fewer
    decisions than frames is refused. *)
Theorem C61_batch_mean :
  forall ys vad ryy rnn, covmats_batch ys vad = Ok (ryy, rnn) ->
    (length ys <= length vad)%nat /\
    forall (b : bool) r, r = (if b then ryy else rnn) ->
      let m := count_occ Bool.bool_dec (firstn (length ys) vad) b in
      match r with
      | None => m = 0%nat
      | Some r => (0 < m)%nat /\ forall f i j, (cr (INR m) * r f i j =
          csum (length ys) (fun t => if Bool.eqb (nth t vad (negb b)) b
            then nth t ys (fun _ _ => czero) f i * Cx.conj (nth t ys (fun _ _ => czero) f j) else czero))%cx
      end.
Proof.
  intros ys vad ryy rnn H. unfold covmats_batch in H.
  assert (E : (if Nat.ltb (length ys) (length vad) then firstn (length ys) vad else vad) = firstn (length ys) vad).
  { destruct (Nat.ltb_spec (length ys) (length vad)); [reflexivity|]. rewrite firstn_all2 by lia. reflexivity. }
  rewrite E in H. destruct (Nat.eqb_spec (length (firstn (length ys) vad)) (length ys)) as [L|]; [|discriminate].
  injection H as <- <-. split; [rewrite firstn_length in L; lia|]. intros b r ->.
  assert (A := mean_outer_sum b _ _ L). destruct b; (destruct (mean_outer _); [|exact A]; destruct A as [A B]; split; [exact A|];
    intros f i j; rewrite B; apply csum_ext; intros q Ht; rewrite nth_firstn_lt by exact Ht; reflexivity).
Qed.

(** ** C29
    One update event, relaxation on: the external filter moves from its value
    towards the target by the convex combination given by the averaging factor;
    the target moves, by the convex combination given by the relaxation factor
    towards the new internal filter, if and only if the interval has elapsed since
    its last move (always, in batch mode). *)
Theorem C29_relaxed_step :
  forall p w t s s', ext_update p w t s = Ok s' -> xp_ref_only p = false -> xp_single p = false -> xp_off p = false ->
    exists old, nth_error (x_ext s) (x_i s) = Some old /\ x_i s' = S (x_i s) /\
      nth_error (x_ext s') (S (x_i s)) = Some (fun f c => cr (xp_beta p) * old f c + cr (1 - xp_beta p) * x_target s f c)%cx /\
      (forall j, j <> S (x_i s) -> nth_error (x_ext s') j = nth_error (x_ext s) j) /\
      let due := match t with None => True | Some t => xp_every p <= t - x_last s end in
      (due -> x_target s' = (fun f c => cr (1 - xp_alpha p) * x_target s f c + cr (xp_alpha p) * w f c)%cx /\
              x_last s' = match t with None => x_last s | Some t => t end) /\
      (~ due -> x_target s' = x_target s /\ x_last s' = x_last s).
Proof.
  intros p w t s s' H H1 H2 H3. apply ext_step in H. destruct H as (old & new & A & B & C & D & H).
  exists old. split; [exact A|]. split; [exact B|]. destruct H as [H|[H|[H|H]]]; [destruct H; congruence | destruct H as (_ & H & _); congruence | destruct H as (_ & _ & H & _); congruence|].
  destruct H as (_ & _ & _ & -> & H). rewrite D. split; [apply upd_nth_same; exact C|]. split; [intros j Hj; apply upd_nth_other; congruence|].
  destruct t as [t|]; cbv zeta.
  - destruct H as [[[H4 H5] H6]|((t' & E & H4) & H5 & H6)].
    + split; [auto|]. intros Hn. contradiction.
    + injection E as <-. split; [intros Hd; lra|]. auto.
  - destruct H as [[H4 H5]|((t' & E & _) & _)]; [|discriminate]. split; [auto|]. intros Hn. exfalso. apply Hn. exact I.
Qed.

(** Relaxation off (or sequential updating): the external filter is the new
    internal filter at once.  Single-sensor nodes without fusion keep theirs, and
    nodes broadcasting only their reference signal select that sensor. *)
Theorem C29_relaxation_off :
  forall p w t s s', ext_update p w t s = Ok s' ->
    (xp_ref_only p = true -> exists v, nth_error (x_ext s') (S (x_i s)) = Some v /\ forall f c, v f c = if Nat.eqb c (xp_ref p) then cone else czero) /\
    (xp_ref_only p = false -> xp_single p = true -> nth_error (x_ext s') (S (x_i s)) = nth_error (x_ext s) (x_i s)) /\
    (xp_ref_only p = false -> xp_single p = false -> xp_off p = true -> nth_error (x_ext s') (S (x_i s)) = Some w).
Proof.
  intros p w t s s' H. apply ext_step in H. destruct H as (old & new & A & B & C & D & H). rewrite D, A.
  rewrite upd_nth_same by exact C. destruct H as [H|[H|[H|H]]].
  - destruct H as (-> & -> & _). split; [|split; discriminate]. intros _. eexists. split; [reflexivity|]. reflexivity.
  - destruct H as (-> & -> & -> & _). split; [discriminate|]. split; [reflexivity | discriminate].
  - destruct H as (-> & -> & -> & -> & _). split; [discriminate|]. split; [discriminate | reflexivity].
  - destruct H as (-> & -> & -> & _). split; [discriminate|]. split; discriminate.
Qed.

(** Over any run: external filters and target stay within any bounds that contain
    the initial filters, the initial target and all the internal filters. *)
Theorem C29_stays_within :
  forall lo hi p evs s s', xp_ref_only p = false -> 0 <= xp_beta p <= 1 -> 0 <= xp_alpha p <= 1 ->
    ext_run p evs s = Ok s' ->
    (forall ev, In ev evs -> within lo hi (fst ev)) -> within lo hi (x_target s) -> (forall v, In v (x_ext s) -> within lo hi v) ->
    within lo hi (x_target s') /\ forall v, In v (x_ext s') -> within lo hi v.
Proof. intros lo hi p evs s s' H1 H2 H3 H4 H5 H6 H7. eapply run_within; eauto. Qed.

(** Two moves of the target are at least the configured interval apart. *)
Theorem C29_target_moves_spaced :
  forall p evs s l lo, ext_trace p evs s = Ok l -> times_sorted lo evs -> x_last s <= lo ->
  forall j k w t sj sj' w' t' sk sk', (j < k)%nat ->
    nth_error evs j = Some (w, Some t) -> nth_error l j = Some sj -> nth_error l (S j) = Some sj' -> x_target sj' <> x_target sj ->
    nth_error evs k = Some (w', Some t') -> nth_error l k = Some sk -> nth_error l (S k) = Some sk' -> x_target sk' <> x_target sk ->
    xp_every p <= t' - t.
Proof. exact moves_spaced. Qed.

(** At the target the external filter does not move. *)
Theorem C29_fixed_at_target :
  forall p w t s s' old, ext_update p w t s = Ok s' -> xp_ref_only p = false -> xp_single p = false -> xp_off p = false ->
    nth_error (x_ext s) (x_i s) = Some old -> (forall f c, old f c = x_target s f c) ->
    exists new, nth_error (x_ext s') (S (x_i s)) = Some new /\ forall f c, new f c = old f c.
Proof.
  intros p w t s s' old H H1 H2 H3 Ho He. destruct (C29_relaxed_step p w t s s' H H1 H2 H3) as (old' & A & _ & B & _).
  assert (old' = old) by congruence. subst old'. eexists. split; [exact B|]. intros f c. cbv beta. rewrite <- He. exact (lin_same (xp_beta p) old f c).
Qed.

(** ** Examples *)
(** C61: three frames of one microphone with decisions 1, 0, 1 (a fourth decision is
    ignored). *)
Example C61_ex : exists r rnn, covmats_batch (map (fun x => fun _ _ => cr x) [3; 5; 1]) [true; false; true; false] = Ok (Some r, Some rnn) /\ r 0%nat 0%nat 0%nat = cr 5 /\ rnn 0%nat 0%nat 0%nat = cr 25.
Proof.
  eexists. eexists. split; [reflexivity|]. cbv beta. cbn [length map csum nth select combine filter fst snd Bool.eqb].
  split; apply cx_eq; cbn; field.
Qed.
Example C61_ex_online : weighted (1 / 2) (fun _ _ _ => czero) [(1%nat, fun _ _ => cr 2); (1%nat, fun _ _ => cr 4)] 0%nat 0%nat 0%nat = cr 9.
Proof. unfold weighted, corr. cbn [length csum nth fst snd pow Nat.sub INR]. apply cx_eq; cbn; field. Qed.

Definition ex_id : tens := fun _ i j => if Nat.eqb i j then cone else czero.
Lemma ex_id_ok d : hermitian d ex_id /\ psd d ex_id.
Proof.
  split.
  - intros f i j _ _. unfold ex_id. rewrite Nat.eqb_sym. destruct (Nat.eqb i j); apply cx_eq; cbn; ring.
  - intros f x. unfold quad.
    rewrite (csum_ext d _ (fun i => x i * Cx.conj (x i))%cx).
    + induction d as [|d IH]; [cbn; lra|]. cbn [csum]. destruct (mul_conj_nonneg (x d)). cbn in *. lra.
    + intros i Hi. rewrite (csum_single d _ i Hi); [unfold ex_id; rewrite Nat.eqb_refl; ring|].
      intros j _ Hj. unfold ex_id. destruct (Nat.eqb_spec i j); [congruence|]. ring.
Qed.
Example C27_ex : exists n,
  filt_run outer (avg (1 / 2)) (fun _ _ _ => true) (fun _ _ _ => tt) (mkF false 0 false false)
    [mkU 0 (2%nat, fun f c => mkC 1 (INR c)) (2%nat, fun f c => mkC 1 (INR c)) (2%nat, fun f c => mkC 1 (INR c)) (2%nat, fun f c => mkC 1 (INR c)) true true false false false]
    (fnode_init (est_init ex_id tt 3 2) None None None) = Ok n /\ hermitian 2 ex_id /\ psd 2 ex_id.
Proof. eexists. split; [reflexivity | apply ex_id_ok]. Qed.

(** A genuinely complex 2 x 2 case. *)
Definition ex_ryy : mat := fun i j => match i, j with
  | O, O => cr 2 | O, S O => mkC 0 1 | S O, O => mkC 0 (-1) | S O, S O => cr 2 | _, _ => czero end.
Definition ex_inv : mat := fun i j => match i, j with
  | O, O => cr (2 / 3) | O, S O => mkC 0 (- (1 / 3)) | S O, O => mkC 0 (1 / 3) | S O, S O => cr (2 / 3) | _, _ => czero end.
Example C31_ex_inverse : is_inverse 2 ex_ryy ex_inv.
Proof.
  split; intros i j Hi Hj; destruct i as [|[|i]], j as [|[|j]]; try lia; unfold mmul, csum, ex_ryy, ex_inv, ident; cbn [Nat.eqb]; apply cx_eq; cbn; field.
Qed.
Example C31_ex : update_w 2 0 ex_inv ex_ryy ident 0%nat = cr (1 / 3) /\ update_w 2 0 ex_inv ex_ryy ident 1%nat = mkC 0 (- (1 / 3)).
Proof. split; unfold update_w, mvec, msub, unit_vec, csum, ex_ryy, ex_inv, ident; cbn [Nat.eqb]; apply cx_eq; cbn; field. Qed.
Example C57_ex : gevd 2 (fun i j => if Nat.eqb i j then cr (INR (3 - i)) else czero) ident (fun i => INR (3 - i)) ident /\ is_inverse 2 (mherm ident) ident.
Proof.
  split; split; intros i j Hi Hj; destruct i as [|[|i]], j as [|[|j]]; try lia; unfold mmul, mherm, csum, ident; cbn [Nat.eqb]; apply cx_eq; cbn; ring.
Qed.

(** Two events 1 s apart with interval 1 s: both move the target. *)
Definition ex_cst (x : R) : coefs := fun _ _ => cr x.
Definition ex_x := mkX false 0 false false (1 / 2) 1 1.
Example C29_ex : exists s', ext_run ex_x [(ex_cst 4, Some 1); (ex_cst 8, Some 2)] (mkXS 0 [ex_cst 0; ex_cst 0; ex_cst 0] (ex_cst 0) 0) = Ok s' /\
  x_target s' 0%nat 0%nat = cr 8 /\ exists v, nth_error (x_ext s') 2 = Some v /\ v 0%nat 0%nat = cr 2.
Proof.
  unfold ext_run, foldM, ext_update. cbn [fst snd bind get put nth_error length Nat.ltb Nat.leb x_i x_ext x_target x_last ex_x xp_ref_only xp_single xp_off xp_every xp_beta xp_alpha xp_ref].
  unfold get, put. cbn [nth_error length Nat.ltb Nat.leb bind x_i x_ext x_target x_last].
  destruct (Rle_dec 1 (1 - 0)); [|exfalso; lra]. cbn [bind x_i x_ext x_target x_last nth_error length Nat.ltb Nat.leb upd].
  destruct (Rle_dec 1 (2 - 1)); [|exfalso; lra]. eexists. split; [reflexivity|]. cbn [x_target x_ext nth_error]. split.
  - unfold lin, ex_cst. apply cx_eq; cbn; field.
  - eexists. split; [reflexivity|]. unfold lin, ex_cst. apply cx_eq; cbn; field.
Qed.

Print Assumptions C27_hermitian_psd.
Print Assumptions C27_batch_hermitian_psd.
Print Assumptions C31_normal_equations.
Print Assumptions C31_scale_invariance.
Print Assumptions C57_gevd_full_rank.
Print Assumptions C57_gevd_span.
Print Assumptions C61_online_weights.
Print Assumptions C61_first_frame_as_basis.
Print Assumptions C61_weights_total.
Print Assumptions C61_batch_mean.
Print Assumptions C29_relaxed_step.
Print Assumptions C29_relaxation_off.
Print Assumptions C29_stays_within.
Print Assumptions C29_target_moves_spaced.
Print Assumptions C29_fixed_at_target.
