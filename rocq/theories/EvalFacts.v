From Verif Require Import Base BaseFacts Eval EvalSpec.
From Coq Require Import Reals Lra.
Local Open Scope R_scope.

Lemma masked_whole x : masked (repeat true (length x)) x = Ok x.
Proof.
  unfold masked. rewrite repeat_length, Nat.eqb_refl. f_equal. induction x as [|r x IH]; [reflexivity|]. cbn [length repeat combine filter snd map fst]. now rewrite IH.
Qed.
Lemma masked_len n x : masked (repeat true n) x = if Nat.eqb n (length x) then Ok x else Err IndexError.
Proof.
  destruct (Nat.eqb_spec n (length x)) as [->|H]; [apply masked_whole|]. unfold masked. rewrite repeat_length. now apply Nat.eqb_neq in H as ->.
Qed.
Lemma get_snr_whole s n vad : get_snr s n vad true = if Nat.eqb (length s) (length n) then Ok (db (mean (squares s)) (mean (squares n))) else Err IndexError.
Proof.
  unfold get_snr. replace (match vad with None => repeat true (length s) | Some _ => repeat true (length s) end) with (repeat true (length s)) by (now destruct vad).
  rewrite masked_whole. cbn [bind]. rewrite masked_len. destruct (Nat.eqb _ _); reflexivity.
Qed.
Lemma get_snr_none s n : get_snr s n None false = get_snr s n None true.
Proof. reflexivity. Qed.
Lemma energy_pos x : 0 <= energy x.
Proof. unfold energy. induction x as [|r x IH]; cbn; [lra|]. pose proof (Rle_0_sqr r) as P. unfold Rsqr in P. unfold rsum, squares in IH. lra. Qed.
Lemma energy_gain g x : energy (gain g x) = g * g * energy x.
Proof. unfold energy, gain. induction x as [|r x IH]; cbn; [ring|]. unfold rsum, squares in IH. rewrite IH. ring. Qed.
Lemma ln10 : 0 < ln 10.
Proof. rewrite <- ln_1. apply ln_increasing; lra. Qed.
Lemma log10_mult x y : 0 < x -> 0 < y -> log10 (x * y) = log10 x + log10 y.
Proof. intros Hx Hy. unfold log10. rewrite ln_mult by assumption. pose proof ln10. field. lra. Qed.
Lemma log10_inv x : 0 < x -> log10 (/ x) = - log10 x.
Proof. intros Hx. unfold log10. rewrite ln_Rinv by assumption. pose proof ln10. field. lra. Qed.
Lemma log10_div x y : 0 < x -> 0 < y -> log10 (x / y) = log10 x - log10 y.
Proof. intros Hx Hy. unfold Rdiv. rewrite log10_mult, log10_inv; [ring|assumption|assumption|now apply Rinv_0_lt_compat]. Qed.
Lemma level_sq g : g <> 0 -> log10 (g * g) = 2 * log10 (Rabs g).
Proof. intros H. replace (g * g) with (Rabs g * Rabs g) by (rewrite <- Rabs_mult; apply Rabs_pos_eq, Rle_0_sqr). rewrite log10_mult by (now apply Rabs_pos_lt). ring. Qed.

Lemma mean_squares x : x <> [] -> mean (squares x) = Fin (energy x / INR (length x)).
Proof. intros H. unfold mean, energy. replace (length x) with (length (squares x)) by (apply map_length). destruct x; [congruence|reflexivity]. Qed.
Lemma mean_nil : mean (squares []) = NaN.
Proof. reflexivity. Qed.
Lemma INR_len {A} (x : list A) : x <> [] -> 0 < INR (length x).
Proof. intros H. apply lt_0_INR. destruct x; [congruence|cbn; lia]. Qed.

(** signals of the same length: the ratio of the energies *)
Lemma snr_value s n vad : length s = length n -> 0 < energy s -> 0 < energy n -> get_snr s n vad true = Ok (Fin (10 * log10 (energy s / energy n))).
Proof.
  intros L Hs Hn. rewrite get_snr_whole. apply Nat.eqb_eq in L as E. rewrite E. assert (Ns : s <> []) by (intros ->; cbn in Hs; unfold energy, rsum in Hs; cbn in Hs; lra).
  assert (Nn : n <> []) by (intros ->; destruct s; [congruence|discriminate]). rewrite !mean_squares by assumption. pose proof (INR_len s Ns) as Is. rewrite <- L. unfold db.
  assert (P : 0 < energy n / INR (length s)) by (apply Rdiv_lt_0_compat; assumption). assert (P' : 0 < energy s / INR (length s)) by (apply Rdiv_lt_0_compat; assumption).
  destruct (Req_EM_T _ 0); [lra|]. destruct (Req_EM_T _ 0); [lra|]. do 4 f_equal. field. lra.
Qed.
(** finite values come from signals that are not zero *)
Lemma snr_finite s n vad x : get_snr s n vad true = Ok (Fin x) -> length s = length n /\ 0 < energy s /\ 0 < energy n.
Proof.
  rewrite get_snr_whole. destruct (Nat.eqb_spec (length s) (length n)) as [L|]; [|discriminate]. intros H. injection H as H. split; [exact L|].
  destruct (list_eq_dec Req_EM_T s []) as [->|Ns]; [cbn in H; discriminate|]. destruct (list_eq_dec Req_EM_T n []) as [->|Nn]; [rewrite mean_squares in H by exact Ns; cbn in H; discriminate|].
  rewrite !mean_squares in H by assumption. pose proof (INR_len s Ns) as Is. pose proof (INR_len n Nn) as In'. pose proof (energy_pos s). pose proof (energy_pos n).
  unfold db in H. destruct (Req_EM_T (energy n / INR (length n)) 0) as [E|E]; [destruct (Req_EM_T _ 0); discriminate|]. destruct (Req_EM_T (energy s / INR (length s)) 0) as [E'|E']; [discriminate|].
  split.
  - destruct (Req_EM_T (energy s) 0) as [Z0|Z0]; [exfalso; apply E'; rewrite Z0; unfold Rdiv; ring|lra].
  - destruct (Req_EM_T (energy n) 0) as [Z0|Z0]; [exfalso; apply E; rewrite Z0; unfold Rdiv; ring|lra].
Qed.
Lemma snr_gain s n vad vad' x g h : g <> 0 -> h <> 0 -> get_snr s n vad true = Ok (Fin x) ->
  get_snr (gain g s) (gain h n) vad' true = Ok (Fin (x + (level g - level h))).
Proof.
  intros Hg Hh H. destruct (snr_finite s n vad x H) as (L & Hs & Hn). rewrite (snr_value s n vad L Hs Hn) in H. injection H as <-.
  assert (Pg : 0 < g * g) by (apply Rsqr_pos_lt in Hg; exact Hg). assert (Ph : 0 < h * h) by (apply Rsqr_pos_lt in Hh; exact Hh).
  rewrite snr_value; [|unfold gain; now rewrite !map_length|rewrite energy_gain; now apply Rmult_lt_0_compat|rewrite energy_gain; now apply Rmult_lt_0_compat].
  do 2 f_equal. rewrite !energy_gain. rewrite (log10_div (g * g * energy s)), (log10_div (energy s)), (log10_mult (g * g)), (log10_mult (h * h)) by (try assumption; now apply Rmult_lt_0_compat). rewrite !level_sq by assumption. unfold level. ring.
Qed.

(** ** Speech-intelligibility weighting *)
Section Si.
  Variables (bp : R -> R -> list R -> list R) (vad vad' : option (list bool)) (fs : R).
  Hypothesis bp_gain : forall lo hi g x, bp lo hi (gain g x) = gain g (bp lo hi x).
  Definition si_step (s n : list R) (vad : option (list bool)) (acc : res xreal) (wf : R * R) : res xreal :=
    do a <- acc;
    let '(lo, hi) := band_edges (snd wf) fs in
    if Rlt_dec hi PI then
      do x <- get_snr (bp lo hi s) (bp lo hi n) vad true;
      Ok (xadd a (xscale (fst wf) x))
    else Err ValueError.
  Lemma si_err s n v l e : fold_left (si_step s n v) l (Err e) = Err e.
  Proof. induction l as [|a l IH]; [reflexivity|exact IH]. Qed.
  Definition infinite (a : xreal) : Prop := forall r, a <> Fin r.
  Lemma si_inf s n v l : forall a r, infinite a -> fold_left (si_step s n v) l (Ok a) <> Ok (Fin r).
  Proof.
    induction l as [|wf l IH]; intros a r Ha; cbn [fold_left]; [intros H; injection H as H; exact (Ha r H)|].
    unfold si_step at 2. cbn [bind]. destruct (band_edges (snd wf) fs) as [lo hi]. destruct (Rlt_dec hi PI); [|rewrite si_err; discriminate].
    destruct (get_snr _ _ _ _) as [x|e]; cbn [bind]; [|rewrite si_err; discriminate]. apply IH. intros q. destruct a as [q'| | |]; [destruct (Ha q' eq_refl)|..]; destruct x; cbn; discriminate.
  Qed.
  Definition wsum (l : list (R * R)) : R := rsum (map fst l).
  Lemma si_gain s n g h : g <> 0 -> h <> 0 -> forall l a a' x, fold_left (si_step s n vad) l (Ok (Fin a)) = Ok (Fin x) ->
    fold_left (si_step (gain g s) (gain h n) vad') l (Ok (Fin a')) = Ok (Fin (x + (a' - a) + (level g - level h) * wsum l)).
  Proof.
    intros Hg Hh. induction l as [|wf l IH]; intros a a' x H; cbn [fold_left] in *.
    - injection H as <-. do 2 f_equal. unfold wsum. cbn. ring.
    - unfold si_step at 2 in H. unfold si_step at 2. cbn [bind] in *. destruct (band_edges (snd wf) fs) as [lo hi]. destruct (Rlt_dec hi PI); [|rewrite si_err in H; discriminate].
      rewrite !bp_gain. destruct (get_snr (bp lo hi s) (bp lo hi n) vad true) as [y|e] eqn:E; cbn [bind] in *; [|rewrite si_err in H; discriminate].
      destruct y as [y| | |]; try (exfalso; refine (si_inf _ _ _ _ _ _ _ H); intros q; cbn; discriminate).
      rewrite (snr_gain _ _ _ vad' y g h Hg Hh E). cbn [bind xscale xadd] in *. rewrite (IH _ (a' + fst wf * (y + (level g - level h))) x H). do 2 f_equal. unfold wsum. cbn [map rsum fold_right].
      fold (rsum (map fst l)). ring.
  Qed.
End Si.
Lemma si_sum : wsum (combine si_weights si_centres) = 1.
Proof. unfold wsum, si_weights, si_centres. cbn [map combine fst rsum fold_right]. lra. Qed.
Lemma sisnr_gain bp s n vad vad' fs x g h : (forall lo hi g x, bp lo hi (gain g x) = gain g (bp lo hi x)) -> g <> 0 -> h <> 0 ->
  get_sisnr bp s n vad fs true = Ok (Fin x) -> get_sisnr bp (gain g s) (gain h n) vad' fs true = Ok (Fin (x + (level g - level h))).
Proof.
  intros HB Hg Hh H. unfold get_sisnr in *. pose proof (si_gain bp vad vad' fs HB s n g h Hg Hh _ 0 0 x H) as G. unfold si_step in G. rewrite G. rewrite si_sum. do 2 f_equal. ring.
Qed.

(** ** Windows *)
Lemma slice_gain a b g x : py_slice a b (gain g x) = gain g (py_slice a b x).
Proof. unfold py_slice, slice, gain. rewrite map_length, skipn_map, firstn_map. reflexivity. Qed.
Lemma fw_range raw clean x fs fl o e l : get_fwsnrseg raw clean x fs fl o e = Ok l -> Forall (fun r => 0 <= r <= 35) l.
Proof.
  unfold get_fwsnrseg. destruct (Nat.eqb _ _); [|discriminate]. intros H. injection H as <-. apply Forall_forall. intros r Hr. apply in_map_iff in Hr. destruct Hr as (y & <- & _).
  unfold clip35. split; [apply Rmin_glb; [lra|apply Rmax_l]|apply Rmin_l].
Qed.
Lemma rsum_range l : Forall (fun r => 0 <= r <= 35) l -> 0 <= rsum l <= 35 * INR (length l).
Proof. induction 1 as [|r l H _ IH]; [cbn; lra|]. cbn [length]. rewrite S_INR. unfold rsum in *. cbn [fold_right]. lra. Qed.
Lemma mean_range l : Forall (fun r => 0 <= r <= 35) l -> mean l = NaN \/ exists r, mean l = Fin r /\ 0 <= r <= 35.
Proof.
  intros H. destruct l as [|a l]; [now left|right]. exists (rsum (a :: l) / INR (length (a :: l))). split; [reflexivity|]. pose proof (rsum_range _ H) as [A B]. assert (P : 0 < INR (length (a :: l))) by (now apply INR_len).
  split; [apply Rmult_le_pos; [exact A|left; now apply Rinv_0_lt_compat]|]. apply Rmult_le_reg_r with (INR (length (a :: l))); [exact P|]. unfold Rdiv. rewrite Rmult_assoc, Rinv_l by lra. lra.
Qed.

Lemma one_metric_ok ev ev' evb g m : one_metric ev ev' evb g = Ok m ->
  ev (g_noisy g) = Ok (m_before m) /\ ev (g_danse g) = Ok (m_after m) /\ m_diff m = xsub (m_after m) (m_before m) /\
  opt ev (Fin 0) (g_centr g) = Ok (m_afterCentr m) /\ opt ev (Fin 0) (g_local g) = Ok (m_afterLocal m) /\ opt ev' (Fin 0) (g_ssbc g) = Ok (m_afterSSBC m) /\
  m_diffLocal m = Fin 0 /\ m_diffCentr m = Fin 0 /\ m_diffSSBC m = Fin 0.
Proof.
  unfold one_metric. intros H. apply bind_ok in H. destruct H as (b & Hb & H). apply bind_ok in H. destruct H as (a & Ha & H). apply bind_ok in H. destruct H as (mm & _ & H).
  apply bind_ok in H. destruct H as (c & Hc & H). apply bind_ok in H. destruct H as (l & Hl & H). apply bind_ok in H. destruct H as (s & Hs & H). injection H as <-. cbn. repeat split; assumption.
Qed.
Lemma if_asked_ok k r o : if_asked k r = Ok o -> forall m, o = Some m -> k = true /\ r = Ok m.
Proof. unfold if_asked. destruct k; intros H m ->; [|discriminate]. apply bind_ok in H. destruct H as (x & E & H). injection H as ->. auto. Qed.
Lemma one_metric_best ev ev' evb g m : one_metric ev ev' evb g = Ok m ->
  match g_best g with None => m_best m = None | Some x => exists v, m_best m = Some v /\ evb x = Ok v end.
Proof.
  unfold one_metric. intros H. apply bind_ok in H. destruct H as (b & Hb & H). apply bind_ok in H. destruct H as (a & Ha & H). apply bind_ok in H. destruct H as (mm & Hm & H).
  apply bind_ok in H. destruct H as (c & Hc & H). apply bind_ok in H. destruct H as (l & Hl & H). apply bind_ok in H. destruct H as (s & Hs & H). injection H as <-. cbn [m_best].
  destruct (g_best g) as [x|]; cbn [opt] in Hm; [|now injection Hm as <-]. apply bind_ok in Hm. destruct Hm as (v & Hv & Hm). injection Hm as <-. eauto.
Qed.
