(** Batch DANSE with one desired source: whole runs. *)
From Verif Require Import Base BaseFacts Cx CxFacts Scm ScmSpec ScmFacts ScmFacts2 Ext Buffers Batch BatchFacts BatchSig BatchSigSpec BatchSigFacts BatchSigFacts2 BatchSigFacts3 BatchSigFacts4.
From Coq Require Import Reals Lra.
Local Open Scope R_scope.
Local Open Scope cx_scope.

Lemma others_in nn k q : In q (others nn k) <-> (q < nn)%nat /\ q <> k.
Proof.
  unfold others. rewrite filter_In, in_seq. destruct (Nat.eqb_spec q k) as [->|H]; cbn; split; intros; try lia; try (split; lia); intuition congruence.
Qed.
Lemma others_good nn (nbrs : nat -> list nat) k : nbrs k = others nn k -> good_nbrs nn nbrs k.
Proof.
  intros H. unfold good_nbrs. rewrite H. split; [apply NoDup_filter, seq_NoDup|]. split.
  - intros q Hq. apply others_in in Hq. tauto.
  - intros Hq. apply others_in in Hq. tauto.
Qed.
Lemma others_index nn k q : (q < nn)%nat -> q <> k -> exists i, index_of q (others nn k) = Some i /\ nth_error (others nn k) i = Some q.
Proof.
  intros Hq Hne. assert (Hi : In q (others nn k)) by (apply others_in; auto).
  destruct (index_of q (others nn k)) as [i|] eqn:E.
  - exists i. split; [reflexivity|]. apply index_of_spec; [apply NoDup_filter, seq_NoDup | exact E].
  - apply index_of_none in E. contradiction.
Qed.

Section One.
  Variables (nn : nat) (ms : nat -> nat) (ys : nat -> list stft) (vads : nat -> list bool) (nbrs : nat -> list nat) (ti : bool) (ref T : nat).
  Variable inv : nat -> mat -> mat.
  Hypothesis Hd : data_ok nn ms ys vads ref T.
  Variable v : list bool.
  Hypothesis Hv : forall k, (k < nn)%nat -> vads k = v.
  Hypothesis Hfc : ti = false -> forall k, (k < nn)%nat -> nbrs k = others nn k.
  Hypothesis Hg : forall k, (k < nn)%nat -> good_nbrs nn nbrs k.
  Variables (f : nat) (p : R) (s : nat -> nat -> cx).
  Notation y := (fun q t m => frame_at (ys q) t f m).
  Hypothesis Hs : single_source nn ms y v T p s.
  Hypothesis Hs0 : forall k, (k < nn)%nat -> s k ref <> czero.
  Notation yt := (y_tilde nn ms ys nbrs ti).
  Notation dimk k := (dim ms nbrs ti k).
  Notation cov := (tilde_covmats nn ms ys vads nbrs ti).
  Notation neww := (new_w ms nbrs ti ref inv).
  Notation nw k w e := (netwide ti ms nbrs k w e).
  Notation err k w := (error nn ms y v T k ref w).
  Notation invok es k := (is_inverse (dimk k) (fst (cov es k) f) (inv (dimk k) (fst (cov es k) f))).

  Lemma ref_lt k : (k < nn)%nat -> (ref < ms k)%nat.
  Proof. intros Hk. destruct (Hd k Hk). assumption. Qed.

  (** ** Decrease *)
  (** A multiple of node [k]'s filter is in reach of node [q] once [k] has adopted it. *)
  Lemma reachable k q g w e e' : (k < nn)%nat -> (q < nn)%nat -> k <> q ->
    (ti = true -> w (ms k) <> czero /\ forall m, (m <= ms k)%nat -> e' k m = w m) ->
    (ti = false -> exists c, forall m, (m < ms k)%nat -> w m = c * e' k m) ->
    (forall r m, (r < nn)%nat -> r <> k -> (m <= ms r)%nat -> e' r m = e r m) ->
    exists u, forall r m, (r < nn)%nat -> (m < ms r)%nat -> nw q u e' r m = scaled g (nw k w e) r m.
  Proof.
    intros Hk Hq Hne E1 E1' E2.
    destruct ti eqn:Eti.
    - destruct (E1 eq_refl) as [Hl E1w]. clear E1 E1'. rename E1w into E1.
      exists (fun c => if Nat.ltb c (ms q) then g * nw k w e q c else g * w (ms k)).
      intros r m Hr Hm. unfold scaled. unfold netwide at 1. destruct (Nat.eqb_spec r q) as [->|Hrq].
      + rewrite Eti. destruct (Nat.ltb_spec m (ms q)); [reflexivity | lia].
      + destruct (Nat.ltb_spec (ms q) (ms q)); [lia|]. unfold netwide. destruct (Nat.eqb_spec r k) as [->|Hrk].
        * rewrite !E1 by lia. replace (g * w (ms k) * (w m * cinv (w (ms k)))) with (g * w m * (w (ms k) * cinv (w (ms k)))) by ring.
          rewrite cinv_r by auto. ring.
        * rewrite !E2 by (auto; lia). ring.
    - destruct (E1' eq_refl) as [c0 E1w]. clear E1 E1'. rename E1w into E1. assert (Bk := Hfc eq_refl k Hk). assert (Bq := Hfc eq_refl q Hq).
      exists (fun c => if Nat.ltb c (ms q) then g * nw k w e q c else
        match nth_error (nbrs q) (c - ms q) with
        | Some r => if Nat.eqb r k then g * c0 else match index_of r (nbrs k) with Some i => g * w (ms k + i)%nat | None => czero end
        | None => czero end).
      intros r m Hr Hm. unfold scaled. unfold netwide at 1. rewrite Eti. destruct (Nat.eqb_spec r q) as [->|Hrq].
      + destruct (Nat.ltb_spec m (ms q)); [reflexivity | lia].
      + rewrite Bq. destruct (others_index nn q r Hr Hrq) as (i & Ei & Ni). rewrite Ei.
        destruct (Nat.ltb_spec (ms q + i) (ms q)); [lia|]. replace (ms q + i - ms q)%nat with i by lia. rewrite Ni.
        unfold netwide. destruct (Nat.eqb_spec r k) as [->|Hrk].
        * rewrite E1 by lia. ring.
        * rewrite Bk. destruct (others_index nn k r Hr Hrk) as (i' & Ei' & _). rewrite Ei', E2 by (auto; lia). ring.
  Qed.
  Lemma next_better k q w es es' : (k < nn)%nat -> (q < nn)%nat -> k <> q ->
    (ti = true -> w (ms k) <> czero /\ forall m, (m <= ms k)%nat -> ext_of es' f k m = w m) ->
    (ti = false -> exists c, forall m, (m < ms k)%nat -> w m = c * ext_of es' f k m) ->
    (forall r m, (r < nn)%nat -> r <> k -> (m <= ms r)%nat -> ext_of es' f r m = ext_of es f r m) -> invok es' q ->
    (err q (nw q (neww q (cov es' q) f) (ext_of es' f)) / sq (s q ref) <= err k (nw k w (ext_of es f)) / sq (s k ref))%R.
  Proof.
    intros Hk Hq Hne E1 E1' E2 Hi.
    rewrite <- (error_scaled nn ms y v T ref p s Hs ref_lt q k (nw k w (ext_of es f)) Hq Hk (Hs0 k Hk) (Hs0 q Hq)).
    apply Rmult_le_compat_r; [left; apply Rinv_0_lt_compat, sq_pos, Hs0; exact Hq|].
    destruct (reachable k q (conj (s q ref * cinv (s k ref))) w (ext_of es f) (ext_of es' f) Hk Hq Hne E1 E1' E2) as [u Hu].
    rewrite <- (error_ext nn ms ys ref T f v q _ _ Hu). rewrite <- (Hv q Hq). apply update_optimal; auto.
  Qed.

  (** ** Fixed point *)
  Notation nc := (offset ms nn).
  Notation ccov := (centr_covmats nn ms ys vads).
  Notation cw := (centr_w nn ms ys vads ref inv).
  Hypothesis Hci : is_inverse nc (fst ccov f) (inv nc (fst ccov f)).
  Lemma y_centr_at t q m : (q < nn)%nat -> (m < ms q)%nat -> y_centr nn ms ys t f (offset ms q + m)%nat = frame_at (ys q) t f m.
  Proof. intros Hq Hm. unfold y_centr. rewrite (locate_offset nn ms nbrs inv) by assumption. reflexivity. Qed.
  Lemma ccov_inverse : (0 < nn)%nat -> is_inverse nc (rmat v T (fun t c => y_centr nn ms ys t f c) true) (inv nc (fst ccov f)).
  Proof.
    intros H0n. refine (is_inverse_ext _ _ _ _ _ Hci). intros i j _ _. destruct (Hd 0%nat H0n) as (_ & HT & HV & H1 & H0). rewrite (Hv 0%nat H0n) in HV, H1, H0.
    unfold centr_covmats. rewrite (centr_vad_same nn vads nbrs inv v Hv H0n), HT. apply (batch_rmat (y_centr nn ms ys) v T HV H1 H0 f i j).
  Qed.
  Lemma centr_rhs k q m : (k < nn)%nat -> (q < nn)%nat -> (m < ms q)%nat ->
    rmat v T (fun t c => y_centr nn ms ys t f c) true (offset ms q + m)%nat (offset ms k + ref)%nat - rmat v T (fun t c => y_centr nn ms ys t f c) false (offset ms q + m)%nat (offset ms k + ref)%nat
    = cr p * (s q m * conj (s k ref)).
  Proof.
    intros Hk Hq Hm. rewrite <- (Hs q m k ref Hq Hm Hk (ref_lt k Hk)). unfold speech_corr, rmat.
    f_equal; apply avg_ext; intros t _; rewrite !y_centr_at by auto using ref_lt; reflexivity.
  Qed.
  Lemma centr_parallel k q c : (k < nn)%nat -> (q < nn)%nat -> (c < nc)%nat -> cw k f c * conj (s q ref) = cw q f c * conj (s k ref).
  Proof.
    intros Hk Hq Hc. assert (H0n : (0 < nn)%nat) by lia.
    assert (G : forall a b, (a < nn)%nat -> (b < nn)%nat -> solves nc (rmat v T (fun t c => y_centr nn ms ys t f c) true) (fun c => cw a f c * conj (s b ref))
       (fun i => (rmat v T (fun t c => y_centr nn ms ys t f c) true i (offset ms a + ref)%nat - rmat v T (fun t c => y_centr nn ms ys t f c) false i (offset ms a + ref)%nat) * conj (s b ref))).
    { intros a b Ha Hb i Hi. rewrite <- (centr_solves nn ms ys vads nbrs ref T inv Hd v Hv a f Ha Hci i Hi), <- csum_scale_r. apply csum_ext. intros j _. ring. }
    apply (solution_unique nc _ _ (fun c => cw k f c * conj (s q ref)) (fun c => cw q f c * conj (s k ref)) _ (ccov_inverse H0n) (G k q Hk Hq)); [|exact Hc].
    refine (solves_ext _ _ _ _ _ _ _ _ (G q k Hq Hk)); [auto|]. intros i Hi. destruct (offset_locate ms nn i Hi) as (r & m & Hr & Hm & ->).
    rewrite !centr_rhs by assumption. ring.
  Qed.
  (** orthogonality of the centralised output *)
  Lemma centr_orth k q m : (k < nn)%nat -> (q < nn)%nat -> (m < ms q)%nat ->
    avg_over v true T (fun t => frame_at (ys q) t f m * conj (output nn ms y (split_w ms (cw k f)) t)) = cross v T (fun t => frame_at (ys q) t f m) (fun t => frame_at (ys k) t f ref).
  Proof.
    intros Hk Hq Hm. assert (S := centr_solves nn ms ys vads nbrs ref T inv Hd v Hv k f Hk Hci (offset ms q + m)%nat (offset_lt nn ms nbrs inv q m Hq Hm)).
    cbv beta in S. rewrite (centr_rhs k q m Hk Hq Hm) in S. rewrite <- (Hs q m k ref Hq Hm Hk (ref_lt k Hk)) in S.
    change (cross v T (fun t => frame_at (ys q) t f m) (fun t => frame_at (ys k) t f ref)) with (speech_corr y v T q m k ref). rewrite <- S.
    rewrite (avg_ext v true T _ (fun t => csum nc (fun c => cw k f c * (y_centr nn ms ys t f (offset ms q + m)%nat * conj (y_centr nn ms ys t f c))))).
    - rewrite avg_csum. apply csum_ext. intros c _. rewrite avg_scale. unfold rmat. ring.
    - intros t _. rewrite (centr_output nn ms ys nbrs inv). unfold fout. rewrite csum_conj, <- csum_scale. apply csum_ext. intros c _. rewrite conj_mul, conj_conj, y_centr_at by assumption. ring.
  Qed.

  Variable g : cx.
  Hypothesis Hg0 : g <> czero.
  (** external filters taken from the centralised ones *)
  Definition at_optimum (l : nat -> cx) (e : nat -> nat -> cx) : Prop := forall q, (q < nn)%nat -> l q <> czero /\
    (forall m, (m < ms q)%nat -> e q m = l q * cw q f (offset ms q + m)%nat) /\ (ti = true -> e q (ms q) = l q * (conj (s q ref) * g)).
  Definition opt_w (l : nat -> cx) (k : nat) : vec := fun i => if Nat.ltb i (ms k) then cw k f (offset ms k + i)%nat
    else if ti then conj (s k ref) * g
    else match nth_error (nbrs k) (i - ms k) with Some q => conj (s k ref * cinv (s q ref)) * cinv (l q) | None => czero end.
  Lemma conj_ne z : z <> czero -> conj z <> czero.
  Proof. intros H E. apply H. rewrite <- (conj_conj z), E. apply cx_eq; cbn; ring. Qed.
  Lemma cmul_ne a b : a <> czero -> b <> czero -> a * b <> czero.
  Proof.
    intros Ha Hb E. apply Ha. transitivity (a * (b * cinv b)); [rewrite cinv_r by exact Hb; ring|]. transitivity (a * b * cinv b); [ring|]. rewrite E. ring.
  Qed.
  Lemma opt_netwide l k e q m : (k < nn)%nat -> (q < nn)%nat -> (m < ms q)%nat -> at_optimum l e -> nw k (opt_w l k) e q m = split_w ms (cw k f) q m.
  Proof.
    intros Hk Hq Hm He. destruct (He q Hq) as (L & E1 & E2). unfold split_w. unfold netwide. destruct (Nat.eqb_spec q k) as [->|Hqk].
    - unfold opt_w. destruct (Nat.ltb_spec m (ms k)); [reflexivity | lia].
    - assert (P := centr_parallel k q (offset ms q + m)%nat Hk Hq (offset_lt nn ms nbrs inv q m Hq Hm)). unfold opt_w.
      assert (Q := cinv_r _ (conj_ne _ (Hs0 q Hq))). destruct ti eqn:Eti.
      + rewrite E1, E2 by auto. destruct (Nat.ltb_spec (ms k) (ms k)); [lia|].
        assert (N : l q * (conj (s q ref) * g) <> czero) by (apply cmul_ne; [exact L | apply cmul_ne; [apply conj_ne; auto | exact Hg0]]).
        transitivity (cw q f (offset ms q + m)%nat * conj (s k ref) * (l q * g) * cinv (l q * (conj (s q ref) * g))); [ring|]. rewrite <- P.
        transitivity (cw k f (offset ms q + m)%nat * ((l q * (conj (s q ref) * g)) * cinv (l q * (conj (s q ref) * g)))); [ring|]. rewrite cinv_r by exact N. ring.
      + rewrite (Hfc eq_refl k Hk). destruct (others_index nn k q Hq Hqk) as (i & Ei & Ni). rewrite Ei.
        destruct (Nat.ltb_spec (ms k + i) (ms k)); [lia|]. replace (ms k + i - ms k)%nat with i by lia. rewrite Ni, E1 by exact Hm. rewrite conj_mul.
        transitivity (cw q f (offset ms q + m)%nat * conj (s k ref) * conj (cinv (s q ref)) * (l q * cinv (l q))); [ring|]. rewrite <- P, (cinv_r _ L).
        transitivity (cw k f (offset ms q + m)%nat * conj (s q ref * cinv (s q ref))); [rewrite conj_mul; ring|]. rewrite cinv_r by auto.
        apply cx_eq; cbn; ring.
  Qed.
  Lemma opt_solves l es k : (k < nn)%nat -> at_optimum l (ext_of es f) ->
    solves (dimk k) (rmat v T (fun t c => yt es k t f c) true) (opt_w l k)
      (fun i => rmat v T (fun t c => yt es k t f c) true i ref - rmat v T (fun t c => yt es k t f c) false i ref).
  Proof.
    intros Hk He i Hi.
    assert (F : forall t, fout (dimk k) (fun t c => yt es k t f c) (opt_w l k) t = output nn ms y (split_w ms (cw k f)) t).
    { intros t. rewrite <- netwide_output by auto. apply output_ext. intros q m Hq Hm. apply opt_netwide; assumption. }
    set (d := fun c => if Nat.eqb c i then cone else czero).
    assert (D : forall t, yt es k t f i = output nn ms y (nw k d (ext_of es f)) t).
    { intros t. rewrite netwide_output by auto. unfold fout. rewrite (csum_single _ _ i Hi).
      - unfold d. rewrite Nat.eqb_refl. apply cx_eq; cbn; ring.
      - intros c _ Hc. unfold d. destruct (Nat.eqb_spec c i); [contradiction|]. apply cx_eq; cbn; ring. }
    transitivity (avg_over v true T (fun t => output nn ms y (nw k d (ext_of es f)) t * conj (output nn ms y (split_w ms (cw k f)) t))).
    - rewrite (avg_ext v true T _ (fun t => csum (dimk k) (fun c => opt_w l k c * (yt es k t f i * conj (yt es k t f c))))).
      + rewrite avg_csum. apply csum_ext. intros c _. rewrite avg_scale. unfold rmat. ring.
      + intros t _. rewrite <- D, <- F. unfold fout. rewrite csum_conj, <- csum_scale. apply csum_ext. intros c _. rewrite conj_mul, conj_conj. ring.
    - rewrite output_corr. rewrite (csum_ext nn _ (fun q => csum (ms q) (fun m => conj (nw k d (ext_of es f) q m) * cross v T (fun t => frame_at (ys q) t f m) (fun t => frame_at (ys k) t f ref)))).
      + rewrite <- (output_cross nn ms y v T). unfold cross, rmat. assert (R : forall t, yt es k t f ref = frame_at (ys k) t f ref).
        { intros t. unfold y_tilde. destruct (Nat.ltb_spec ref (ms k)); [reflexivity|]. assert (H' := ref_lt k Hk). lia. }
        f_equal; apply avg_ext; intros t _; rewrite D, R; reflexivity.
      + intros q Hq. apply csum_ext. intros m Hm. rewrite centr_orth by assumption. reflexivity.
  Qed.
  Lemma opt_update l es k i : (k < nn)%nat -> at_optimum l (ext_of es f) -> invok es k -> (i < dimk k)%nat -> neww k (cov es k) f i = opt_w l k i.
  Proof.
    intros Hk He Hi Hlt. assert (S1 := new_w_solves nn ms ys vads nbrs ti ref T inv Hd es k f Hk Hi). rewrite (Hv k Hk) in S1.
    refine (solution_unique (dimk k) _ (inv (dimk k) (fst (cov es k) f)) _ _ _ _ S1 (opt_solves l es k Hk He) i Hlt).
    refine (is_inverse_ext _ _ _ _ _ Hi). intros a b _ _. destruct (Hd k Hk) as (_ & HT & HV & H1 & H0). unfold tilde_covmats. rewrite (Hv k Hk) in *. rewrite HT.
    apply (batch_rmat (yt es k) v T HV H1 H0 f a b).
  Qed.
End One.
