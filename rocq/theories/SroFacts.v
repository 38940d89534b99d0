(** Facts about the compensation of sampling-rate offsets. *)
From Verif Require Import Base BaseFacts Buffers BufFacts Centr CentrFacts ChunkSpec Level Cx CxFacts WolaFacts AsyncFacts SroComp SroSpec.
From Coq Require Import Reals Lra.
Local Open Scope R_scope.

Lemma sumS n f : sumR (S n) f = sumR n f + f n. Proof. reflexivity. Qed.
Lemma sumR_ext' n f g : (forall i, (i < n)%nat -> f i = g i) -> sumR n f = sumR n g.
Proof. induction n; intros H; cbn; [reflexivity|]. rewrite IHn, H by (auto; lia). reflexivity. Qed.

Lemma get_lt {A} (l : list A) i d : (i < length l)%nat -> get l i = Ok (nth i l d).
Proof. intros H. apply get_ok. now apply nth_error_nth'. Qed.

Lemma extra_shifts_ok dim nLoc flags : (nLoc + length flags <= dim)%nat ->
  exists x, extra_shifts dim nLoc flags = Ok x /\ length x = dim /\
    forall c, nth c x 0 = if (nLoc <=? c)%nat then drift flags (c - nLoc) else 0.
Proof.
  intros Hd. unfold extra_shifts.
  assert (G : forall n, (n <= length flags)%nat -> exists x, 
    foldM (fun acc q => match nth q flags None with Some f => do _ <- get acc (nLoc + q); Ok (upd (nLoc + q) f acc) | None => Ok acc end) (seq 0 n) (repeat 0 dim) = Ok x
    /\ length x = dim /\ forall c, nth c x 0 = if (nLoc <=? c)%nat && (c <? nLoc + n)%nat then drift flags (c - nLoc) else 0).
  { induction n as [|n IH]; intros Hn.
    - exists (repeat 0 dim). rewrite repeat_length. split; [reflexivity|]. split; [reflexivity|]. intros c. rewrite nth_repeat.
      destruct (Nat.leb_spec nLoc c); cbn [andb]; [|reflexivity]. destruct (Nat.ltb_spec c (nLoc + 0)); [lia|reflexivity].
    - destruct IH as (x & E & Hl & Hx); [lia|]. rewrite seq_S, foldM_app, E. cbn [bind foldM Nat.add].
      destruct (nth n flags None) as [f|] eqn:Ef.
      + rewrite (get_lt x (nLoc + n) 0) by lia. cbn [bind]. exists (upd (nLoc + n) f x). rewrite upd_length. split; [reflexivity|]. split; [exact Hl|].
        intros c. rewrite nth_upd by lia. destruct (Nat.eqb_spec (nLoc + n) c) as [<-|Hc].
        * destruct (Nat.leb_spec nLoc (nLoc + n)); [|lia]. destruct (Nat.ltb_spec (nLoc + n) (nLoc + S n)); [|lia]. cbn [andb].
          unfold drift. replace (nLoc + n - nLoc)%nat with n by lia. now rewrite Ef.
        * rewrite Hx. destruct (Nat.leb_spec nLoc c); [|reflexivity]. cbn [andb]. destruct (Nat.ltb_spec c (nLoc + n)), (Nat.ltb_spec c (nLoc + S n)); try lia; reflexivity.
      + exists x. split; [reflexivity|]. split; [exact Hl|]. intros c. rewrite Hx. destruct (Nat.leb_spec nLoc c); [|reflexivity]. cbn [andb].
        destruct (Nat.ltb_spec c (nLoc + n)), (Nat.ltb_spec c (nLoc + S n)); try lia; try reflexivity.
        assert (c = nLoc + n)%nat as -> by lia. unfold drift. replace (nLoc + n - nLoc)%nat with n by lia. now rewrite Ef. }
  destruct (G (length flags) (Nat.le_refl _)) as (x & E & Hl & Hx). exists x. split; [exact E|]. split; [exact Hl|].
  intros c. rewrite Hx. destruct (Nat.leb_spec nLoc c); [|reflexivity]. cbn [andb]. destruct (Nat.ltb_spec c (nLoc + length flags)); [reflexivity|].
  unfold drift. rewrite nth_overflow by lia. reflexivity.
Qed.

Lemma move_shifts_ok nLoc Ns est psf : (nLoc + length est <= length psf)%nat ->
  exists x, move_shifts nLoc Ns est psf = Ok x /\ length x = length psf /\
    forall c, nth c x 0 = nth c psf 0 - (if (nLoc <=? c)%nat then nth (c - nLoc) est 0 * Ns else 0).
Proof.
  intros Hd. unfold move_shifts.
  assert (G : forall n, (n <= length est)%nat -> exists x, 
    foldM (fun acc q => do v <- get acc (nLoc + q); Ok (upd (nLoc + q) (v - nth q est 0 * Ns) acc)) (seq 0 n) psf = Ok x
    /\ length x = length psf /\ forall c, nth c x 0 = nth c psf 0 - if (nLoc <=? c)%nat && (c <? nLoc + n)%nat then nth (c - nLoc) est 0 * Ns else 0).
  { induction n as [|n IH]; intros Hn.
    - exists psf. split; [reflexivity|]. split; [reflexivity|]. intros c.
      destruct (Nat.leb_spec nLoc c); cbn [andb]; [|ring]. destruct (Nat.ltb_spec c (nLoc + 0)); [lia|ring].
    - destruct IH as (x & E & Hl & Hx); [lia|]. rewrite seq_S, foldM_app, E. cbn [bind foldM Nat.add].
      rewrite (get_lt x (nLoc + n) 0) by lia. cbn [bind]. eexists. split; [reflexivity|]. rewrite upd_length. split; [exact Hl|].
      intros c. rewrite nth_upd by lia. destruct (Nat.eqb_spec (nLoc + n) c) as [<-|Hc].
      * rewrite Hx. destruct (Nat.leb_spec nLoc (nLoc + n)); [|lia]. destruct (Nat.ltb_spec (nLoc + n) (nLoc + S n)); [|lia]. destruct (Nat.ltb_spec (nLoc + n) (nLoc + n)); [lia|]. cbn [andb].
        replace (nLoc + n - nLoc)%nat with n by lia. ring.
      * rewrite Hx. destruct (Nat.leb_spec nLoc c); [|reflexivity]. cbn [andb]. destruct (Nat.ltb_spec c (nLoc + n)), (Nat.ltb_spec c (nLoc + S n)); try lia; reflexivity. }
  destruct (G (length est) (Nat.le_refl _)) as (x & E & Hl & Hx). exists x. split; [exact E|]. split; [exact Hl|].
  intros c. rewrite Hx. destruct (Nat.leb_spec nLoc c); [|reflexivity]. cbn [andb]. destruct (Nat.ltb_spec c (nLoc + length est)); [reflexivity|].
  rewrite (nth_overflow est) by lia. ring.
Qed.

Lemma apply_shifts_len N psf y : length (apply_shifts N psf y) = length y.
Proof. unfold apply_shifts. rewrite map_length, combine_length, seq_length. lia. Qed.
Lemma apply_shifts_entry N psf y b c : (0 < N)%nat -> (b < length y)%nat -> length (nth b y []) = length psf -> (c < length psf)%nat ->
  entry (apply_shifts N psf y) b c = delayed N b (nth c psf 0) (entry y b c).
Proof.
  intros HN Hb Hr Hc. unfold entry, apply_shifts, delayed.
  set (F := fun p : nat * list cx => map (fun c => (snd c * cis (- (2 * PI / INR N * (INR (fst p) * fst c))))%cx) (combine psf (snd p))).
  rewrite (nth_indep (map F _) [] (F (0%nat, []))) by (rewrite map_length, combine_length, seq_length; lia).
  rewrite map_nth, combine_nth by apply seq_length. rewrite seq_nth by exact Hb. unfold F. cbn [fst snd Nat.add].
  set (G := fun c : R * cx => (snd c * cis (- (2 * PI / INR N * (INR b * fst c))))%cx).
  rewrite (nth_indep (map G _) czero (G (0, czero))) by (rewrite map_length, combine_length; lia).
  rewrite map_nth, combine_nth by (symmetry; exact Hr). unfold G. cbn [fst snd]. f_equal. f_equal. field. apply not_0_INR. lia.
Qed.

Lemma skip_spec flags : skip_update flags = true <-> In None flags.
Proof. unfold skip_update. rewrite existsb_exists. split; [intros ([f|] & H & E); [discriminate|exact H]|]. intros H. now exists None. Qed.

(** * runs *)
Lemma shift_at_S Ns fl es i : shift_at Ns fl es (S i) = shift_at Ns fl es i - Ns * es i + fl (S i).
Proof. unfold shift_at. rewrite !sumS. ring. Qed.

Lemma nth_row_len nLoc nNeigh y b : Forall (fun r : list cx => length r = (nLoc + nNeigh)%nat) y -> (b < length y)%nat -> length (nth b y []) = (nLoc + nNeigh)%nat.
Proof. intros H Hb. rewrite Forall_forall in H. apply H. now apply nth_In. Qed.

Lemma sro_run_spec nLoc nNeigh N Ns l : (0 < N)%nat -> Forall (wf_in nLoc nNeigh) l ->
  exists psf outs, sro_run nLoc nNeigh N Ns l = Ok (psf, outs) /\ length psf = (nLoc + nNeigh)%nat /\ length outs = length l /\
    (forall c, nth c psf 0 = if (nLoc <=? c)%nat then sumR (length l) (fun t => drift (si_flags (nth t l si0)) (c - nLoc)) - Ns * sumR (length l) (fun t => nth (c - nLoc) (si_est (nth t l si0)) 0) else 0) /\
    forall i, (i < length l)%nat ->
      (fst (nth i outs (false, [])) = true <-> In None (si_flags (nth i l si0))) /\
      length (snd (nth i outs (false, []))) = length (si_y (nth i l si0)) /\
      forall b c, (b < length (si_y (nth i l si0)))%nat -> (c < nLoc + nNeigh)%nat ->
        entry (snd (nth i outs (false, []))) b c =
        delayed N b (if (nLoc <=? c)%nat then shift_at Ns (fun t => drift (si_flags (nth t l si0)) (c - nLoc)) (fun t => nth (c - nLoc) (si_est (nth t l si0)) 0) i else 0)
          (entry (si_y (nth i l si0)) b c).
Proof.
  intros HN. unfold sro_run. induction l as [|x l IH] using rev_ind; intros Hw.
  - exists (repeat 0 (nLoc + nNeigh)), []. cbn [foldM length sumR]. rewrite repeat_length. split; [reflexivity|]. split; [reflexivity|]. split; [reflexivity|].
    split; [intros c; rewrite nth_repeat; destruct (nLoc <=? c)%nat; ring|]. intros i Hi. lia.
  - apply Forall_app in Hw as (Hw & Hx). apply Forall_inv in Hx as (Hf & He & Hy).
    destruct (IH Hw) as (psf & outs & E & Hl & Ho & Hp & Hi). rewrite foldM_app, E. cbn [bind foldM]. unfold sro_step at 1. cbn [fst snd].
    rewrite Hl. destruct (extra_shifts_ok (nLoc + nNeigh) nLoc (si_flags x)) as (xs & Ex & Hxl & Hxs); [lia|]. rewrite Ex. cbn [bind].
    assert (Hpl : length (vadd psf xs) = (nLoc + nNeigh)%nat) by (rewrite vadd_len; lia).
    destruct (move_shifts_ok nLoc Ns (si_est x) (vadd psf xs)) as (psf' & Em & Hml & Hms); [lia|]. rewrite Em. cbn [bind].
    exists psf', (outs ++ [(skip_update (si_flags x), apply_shifts N (vadd psf xs) (si_y x))]). split; [reflexivity|]. split; [lia|].
    split; [rewrite !app_length, Ho; reflexivity|].
    assert (Eold : forall t, (t < length l)%nat -> nth t (l ++ [x]) si0 = nth t l si0) by (intros; now rewrite app_nth1).
    assert (Enew : nth (length l) (l ++ [x]) si0 = x) by (rewrite app_nth2, Nat.sub_diag by lia; reflexivity).
    assert (Esum : forall f : sro_in -> R, sumR (length l) (fun t => f (nth t (l ++ [x]) si0)) = sumR (length l) (fun t => f (nth t l si0)))
      by (intros f; apply sumR_ext'; intros t Ht; now rewrite Eold).
    split.
    + intros c. rewrite Hms, vadd_nth, Hp, Hxs by lia. rewrite app_length. cbn [length]. rewrite Nat.add_1_r, !sumS.
      destruct (nLoc <=? c)%nat; [|ring]. rewrite Enew.
      rewrite (Esum (fun z => drift (si_flags z) (c - nLoc))), (Esum (fun z => nth (c - nLoc) (si_est z) 0)). ring.
    + rewrite app_length. cbn [length]. intros i Hilt. destruct (Nat.eq_dec i (length l)) as [->|Hne].
      * rewrite Enew. rewrite app_nth2, Ho, Nat.sub_diag by lia. cbn [nth fst snd]. split; [apply skip_spec|]. split; [apply apply_shifts_len|].
        intros b c Hb Hc. rewrite apply_shifts_entry by (try lia; rewrite Hpl; now apply nth_row_len). f_equal.
        rewrite vadd_nth, Hp, Hxs by lia. destruct (nLoc <=? c)%nat; [|ring]. unfold shift_at. rewrite sumS, Enew.
        rewrite (Esum (fun z => drift (si_flags z) (c - nLoc))), (Esum (fun z => nth (c - nLoc) (si_est z) 0)). ring.
      * assert (Hi' : (i < length l)%nat) by lia. destruct (Hi i Hi') as (A & B & C). rewrite Eold by exact Hi'. rewrite app_nth1 by lia.
        split; [exact A|]. split; [exact B|]. intros b c Hb Hc. rewrite C by assumption. f_equal. destruct (nLoc <=? c)%nat; [|reflexivity].
        unfold shift_at. f_equal; [|f_equal]; apply sumR_ext'; intros t Ht; now rewrite Eold by lia.
Qed.

(** * centralised vector *)
Lemma set_range_len b e v l : length (set_range b e v l) = length l.
Proof. unfold set_range. rewrite map_length, combine_length, seq_length. lia. Qed.
Lemma nth_set_range b e v l p : (p < length l)%nat -> nth p (set_range b e v l) 0 = if (b <=? p)%nat && (p <? e)%nat then v else nth p l 0.
Proof.
  intros H. unfold set_range. set (F := fun p : nat * R => if (b <=? fst p)%nat && (fst p <? e)%nat then v else snd p).
  rewrite (nth_indep (map F _) 0 (F (0%nat, 0))) by (rewrite map_length, combine_length, seq_length; lia).
  rewrite map_nth, combine_nth by apply seq_length. rewrite seq_nth by exact H. reflexivity.
Qed.
Lemma add_range_len b e v l : length (add_range b e v l) = length l.
Proof. unfold add_range. rewrite map_length, combine_length, seq_length. lia. Qed.
Lemma nth_add_range b e v l p : (p < length l)%nat -> nth p (add_range b e v l) 0 = if (b <=? p)%nat && (p <? e)%nat then nth p l 0 + v else nth p l 0.
Proof.
  intros H. unfold add_range. set (F := fun p : nat * R => if (b <=? fst p)%nat && (fst p <? e)%nat then snd p + v else snd p).
  rewrite (nth_indep (map F _) 0 (F (0%nat, 0))) by (rewrite map_length, combine_length, seq_length; lia).
  rewrite map_nth, combine_nth by apply seq_length. rewrite seq_nth by exact H. reflexivity.
Qed.

Lemma first_sensor_S nsens q : (q < length nsens)%nat -> first_sensor nsens (S q) = (first_sensor nsens q + nth q nsens 0)%nat.
Proof.
  unfold first_sensor. revert q. induction nsens as [|a l IH]; intros q H; cbn [length] in H; [lia|].
  destruct q as [|q]; [cbn; lia|]. specialize (IH q ltac:(lia)).
  change (list_sum (firstn (S (S q)) (a :: l))) with (a + list_sum (firstn (S q) l))%nat.
  change (list_sum (firstn (S q) (a :: l))) with (a + list_sum (firstn q l))%nat. cbn [nth]. lia.
Qed.
Lemma first_sensor_mono nsens p q : (p <= q)%nat -> (first_sensor nsens p <= first_sensor nsens q)%nat.
Proof.
  unfold first_sensor. revert p q. induction nsens as [|a l IH]; intros p q H; [now rewrite !firstn_nil|].
  destruct p; [cbn; lia|]. destruct q; [lia|]. cbn [firstn]. unfold list_sum in *. cbn [fold_right]. specialize (IH p q ltac:(lia)). lia.
Qed.
Lemma first_sensor_all nsens : first_sensor nsens (length nsens) = list_sum nsens.
Proof. unfold first_sensor. now rewrite firstn_all. Qed.
Lemma block_unique nsens q0 q p : (q0 < length nsens)%nat -> (q < length nsens)%nat ->
  (first_sensor nsens q0 <= p < first_sensor nsens (S q0))%nat -> (first_sensor nsens q <= p < first_sensor nsens (S q))%nat -> q = q0.
Proof.
  intros H0 H A B. destruct (Nat.lt_trichotomy q q0) as [L|[L|L]]; [|exact L|].
  - pose proof (first_sensor_mono nsens (S q) q0 ltac:(lia)). lia.
  - pose proof (first_sensor_mono nsens (S q0) q ltac:(lia)). lia.
Qed.

Lemma filter_true {A} (P : A -> bool) l : (forall a, P a = true) -> filter P l = l.
Proof. intros H. induction l as [|a l IH]; [reflexivity|]. cbn. now rewrite H, IH. Qed.
(** prefix sums of the counts of the other nodes *)
Lemma others_sum nsens k : (k < length nsens)%nat -> forall q, 
  list_sum (firstn q (sensors_others nsens k)) = if (q <=? k)%nat then first_sensor nsens q else (first_sensor nsens (S q) - nth k nsens 0)%nat.
Proof.
  intros Hk q. unfold sensors_others.
  assert (E : map (fun q => nth q nsens 0%nat) (filter (fun q => negb (Nat.eqb q k)) (seq 0 (length nsens))) = firstn k nsens ++ skipn (S k) nsens).
  { clear q. revert k Hk. induction nsens as [|a l IH]; intros k Hk; cbn [length] in Hk; [lia|]. cbn [length seq filter].
    assert (Em : forall P, map (fun q => nth q (a :: l) 0%nat) (filter P (seq 1 (length l))) = map (fun q => nth q l 0%nat) (filter (fun q => P (S q)) (seq 0 (length l)))).
    { intros P. rewrite <- seq_shift. clear IH. induction (seq 0 (length l)) as [|b bs IHb]; [reflexivity|]. cbn [map filter]. destruct (P (S b)); cbn [map]; [f_equal; exact IHb|exact IHb]. }
    destruct k as [|k]; cbn [Nat.eqb negb].
    - rewrite Em. cbn [firstn app skipn]. rewrite filter_true by reflexivity.
      clear. induction l as [|b l IHl]; [reflexivity|]. cbn [length seq map nth]. f_equal. rewrite <- seq_shift, map_map. exact IHl.
    - cbn [map nth]. rewrite Em. cbn [firstn app skipn Nat.eqb]. f_equal. apply IH. lia. }
  rewrite E. rewrite firstn_app, list_sum_app, firstn_firstn, firstn_length, (Nat.min_l k (length nsens)) by lia. destruct (Nat.leb_spec q k) as [L|L].
  - rewrite Nat.min_l by lia. replace (q - k)%nat with 0%nat by lia. cbn [firstn]. unfold first_sensor, list_sum. cbn [fold_right]. lia.
  - rewrite Nat.min_r by lia. 
    assert (G : list_sum (firstn (S q) nsens) = (list_sum (firstn k nsens) + nth k nsens 0 + list_sum (firstn (q - k) (skipn (S k) nsens)))%nat).
    { rewrite <- (firstn_skipn (S k) nsens) at 1. rewrite firstn_app, firstn_firstn, firstn_length, !Nat.min_r, list_sum_app by lia.
      replace (S q - Nat.min (S k) (length nsens))%nat with (q - k)%nat by lia. f_equal. exact (first_sensor_S nsens k Hk). }
    unfold first_sensor. lia.
Qed.

Definition rng_b (nsens : list nat) (k q : nat) : nat := list_sum (firstn q (sensors_others nsens k)).
Definition rng_e (nsens : list nat) (k q : nat) : nat :=
  let e := list_sum (firstn (S q) (sensors_others nsens k)) in if Nat.eqb e (rng_b nsens k q) then S e else e.

Lemma extra_centr_len nsens k flags : length (extra_shifts_centr nsens k flags) = list_sum nsens.
Proof.
  unfold extra_shifts_centr. set (f := fun acc q => _). assert (G : forall l acc, length (fold_left f l acc) = length acc).
  { induction l as [|q l IH]; intros acc; [reflexivity|]. cbn [fold_left]. rewrite IH. unfold f. destruct (Nat.eqb q k); [reflexivity|]. destruct (nth q flags None); [apply set_range_len|reflexivity]. }
  rewrite G. apply repeat_length.
Qed.

(** only node [q0] may write position [p] *)
Lemma extra_centr_one nsens k flags q0 p : (p < list_sum nsens)%nat ->
  (forall q, (q < length nsens)%nat -> q <> k -> (rng_b nsens k q <= p < rng_e nsens k q)%nat -> q = q0) ->
  nth p (extra_shifts_centr nsens k flags) 0 =
    if (q0 <? length nsens)%nat && negb (Nat.eqb q0 k) && (rng_b nsens k q0 <=? p)%nat && (p <? rng_e nsens k q0)%nat then drift flags q0 else 0.
Proof.
  intros Hp Hu. unfold extra_shifts_centr. set (f := fun acc q => _).
  assert (G : forall n, (n <= length nsens)%nat -> length (fold_left f (seq 0 n) (repeat 0 (list_sum nsens))) = list_sum nsens /\
    nth p (fold_left f (seq 0 n) (repeat 0 (list_sum nsens))) 0 = if (q0 <? n)%nat && negb (Nat.eqb q0 k) && (rng_b nsens k q0 <=? p)%nat && (p <? rng_e nsens k q0)%nat then drift flags q0 else 0).
  { induction n as [|n IH]; intros Hn.
    - cbn [seq fold_left]. rewrite repeat_length, nth_repeat. split; reflexivity.
    - destruct IH as (A & B); [lia|]. rewrite seq_S, fold_left_app. cbn [fold_left Nat.add].
      set (z := fold_left f (seq 0 n) (repeat 0 (list_sum nsens))) in *. unfold f.
      change (if Nat.eqb (list_sum (firstn (S n) (sensors_others nsens k))) (list_sum (firstn n (sensors_others nsens k))) then S (list_sum (firstn (S n) (sensors_others nsens k))) else list_sum (firstn (S n) (sensors_others nsens k))) with (rng_e nsens k n).
      change (list_sum (firstn n (sensors_others nsens k))) with (rng_b nsens k n).
      destruct (Nat.eqb_spec n k) as [Ek|Hk].
      + split; [exact A|]. rewrite B. destruct (Nat.ltb_spec q0 n), (Nat.ltb_spec q0 (S n)); try lia; try reflexivity.
        assert (q0 = k) by lia. destruct (Nat.eqb_spec q0 k); [|lia]. reflexivity.
      + destruct (nth n flags None) as [v|] eqn:Ev.
        * rewrite set_range_len. split; [exact A|]. rewrite nth_set_range by lia. rewrite B.
          destruct ((rng_b nsens k n <=? p)%nat && (p <? rng_e nsens k n)%nat) eqn:Ec.
          -- assert (n = q0) as <- by (apply Hu; lia). unfold drift. rewrite Ev. 
             destruct (Nat.ltb_spec n (S n)); [|lia]. destruct (Nat.eqb_spec n k); [lia|]. cbn [negb andb]. now rewrite Ec.
          -- destruct (Nat.ltb_spec q0 n), (Nat.ltb_spec q0 (S n)); try lia; try reflexivity. assert (q0 = n) as -> by lia.
             cbn [andb]. rewrite <- andb_assoc, Ec, andb_false_r. reflexivity.
        * split; [exact A|]. rewrite B. destruct (Nat.ltb_spec q0 n), (Nat.ltb_spec q0 (S n)); try lia; try reflexivity. assert (q0 = n) as -> by lia.
          unfold drift. rewrite Ev. match goal with |- _ = if ?c then _ else _ => destruct c end; reflexivity. }
  destruct (G (length nsens) (Nat.le_refl _)) as (_ & E). exact E.
Qed.

(** nodes listed before [k] *)
Lemma extra_centr_before nsens k flags q s : (k < length nsens)%nat -> Forall (fun n => (0 < n)%nat) nsens -> (q < k)%nat -> (s < nth q nsens 0)%nat ->
  nth (first_sensor nsens q + s) (extra_shifts_centr nsens k flags) 0 = drift flags q.
Proof.
  intros Hk Hpos Hq Hs.
  assert (Hn : forall j, (j < length nsens)%nat -> (0 < nth j nsens 0)%nat) by (intros j Hj; rewrite Forall_forall in Hpos; apply Hpos, nth_In, Hj).
  pose proof (first_sensor_S nsens q ltac:(lia)) as ES. pose proof (first_sensor_mono nsens (S q) k ltac:(lia)) as EK.
  pose proof (first_sensor_mono nsens k (length nsens) ltac:(lia)) as ET. rewrite first_sensor_all in ET.
  assert (Rb : forall j, (j <= k)%nat -> rng_b nsens k j = first_sensor nsens j) by (intros j Hj; unfold rng_b; rewrite others_sum by exact Hk; destruct (Nat.leb_spec j k); [reflexivity|lia]).
  assert (Re : forall j, (j < k)%nat -> rng_e nsens k j = first_sensor nsens (S j)).
  { intros j Hj. unfold rng_e. rewrite Rb by lia. rewrite others_sum by exact Hk. destruct (Nat.leb_spec (S j) k); [|lia].
    rewrite first_sensor_S by lia. specialize (Hn j ltac:(lia)). destruct (Nat.eqb_spec (first_sensor nsens j + nth j nsens 0)%nat (first_sensor nsens j)); [lia|reflexivity]. }
  rewrite (extra_centr_one nsens k flags q); [|lia|].
  2: { intros j Hj Hjk Hc. destruct (Nat.lt_trichotomy j k) as [L|[L|L]]; [|contradiction|].
    - rewrite Rb, Re in Hc by lia. apply (block_unique nsens q j (first_sensor nsens q + s)); lia.
    - exfalso. unfold rng_b in Hc. rewrite others_sum in Hc by exact Hk. destruct (Nat.leb_spec j k); [lia|].
      pose proof (first_sensor_mono nsens (S (S k)) (S j) ltac:(lia)) as M. rewrite (first_sensor_S nsens (S k)), (first_sensor_S nsens k) in M by lia. lia. }
  rewrite Rb, Re by lia. destruct (Nat.ltb_spec q (length nsens)); [|lia]. destruct (Nat.eqb_spec q k); [lia|].
  destruct (Nat.leb_spec (first_sensor nsens q) (first_sensor nsens q + s)); [|lia]. destruct (Nat.ltb_spec (first_sensor nsens q + s) (first_sensor nsens (S q))); [reflexivity|lia].
Qed.

(** nodes with the same number of sensors *)
Lemma first_sensor_repeat n K q : (q <= K)%nat -> first_sensor (repeat n K) q = (q * n)%nat.
Proof.
  unfold first_sensor. revert q. induction K as [|K IH]; intros q H; [now replace q with 0%nat by lia|].
  destruct q; [reflexivity|]. cbn [repeat firstn]. unfold list_sum in *. cbn [fold_right]. rewrite IH by lia. lia.
Qed.
Lemma first_sensor_over l q : (length l <= q)%nat -> first_sensor l q = list_sum l.
Proof. intros H. unfold first_sensor. now rewrite firstn_all2. Qed.

Lemma extra_centr_equal n K k flags q s : (k < K)%nat -> (q < K)%nat -> (s < n)%nat ->
  nth (q * n + s) (extra_shifts_centr (repeat n K) k flags) 0 = if Nat.eqb q k then 0 else if Nat.eqb (S q) K && (0 <? s)%nat then 0 else drift flags q.
Proof.
  intros Hk Hq Hs. set (ns := repeat n K).
  assert (HL : length ns = K) by apply repeat_length.
  assert (HT : list_sum ns = (K * n)%nat) by (rewrite <- first_sensor_all, HL; now apply first_sensor_repeat).
  assert (Hnk : nth k ns 0%nat = n) by (apply (repeat_spec K n (nth k (repeat n K) 0%nat)), nth_In; now rewrite repeat_length).
  assert (Rb : forall j, (j < K)%nat -> j <> k -> rng_b ns k j = (j * n)%nat).
  { intros j Hj Hjk. unfold rng_b. rewrite others_sum by lia. destruct (Nat.leb_spec j k); unfold ns; rewrite first_sensor_repeat by lia; [reflexivity|]. fold ns. rewrite Hnk. lia. }
  assert (Re : forall j, (j < K)%nat -> j <> k -> rng_e ns k j = if Nat.eqb (S j) K then (j * n + 1)%nat else (S j * n)%nat).
  { intros j Hj Hjk. unfold rng_e. rewrite Rb by assumption. rewrite others_sum by lia. destruct (Nat.leb_spec (S j) k) as [L|L].
    - unfold ns. rewrite first_sensor_repeat by lia. destruct (Nat.eqb_spec (S j * n) (j * n)); [nia|]. destruct (Nat.eqb_spec (S j) K); [lia|reflexivity].
    - rewrite Hnk. destruct (Nat.eqb_spec (S j) K) as [E|E].
      + rewrite first_sensor_over by lia. rewrite HT. replace (K * n - n)%nat with (j * n)%nat by nia. rewrite Nat.eqb_refl. lia.
      + unfold ns. rewrite first_sensor_repeat by lia. replace (S (S j) * n - n)%nat with (S j * n)%nat by nia. destruct (Nat.eqb_spec (S j * n) (j * n)); [nia|reflexivity]. }
  assert (Hp : (q * n + s < list_sum ns)%nat) by (rewrite HT; nia).
  rewrite (extra_centr_one ns k flags q _ Hp).
  2: { intros j Hj Hjk Hc. rewrite HL in Hj. rewrite Rb, Re in Hc by lia. destruct (Nat.eqb_spec (S j) K); nia. }
  rewrite HL. destruct (Nat.ltb_spec q K); [|lia]. cbn [andb]. destruct (Nat.eqb_spec q k) as [|Hqk]; [reflexivity|]. cbn [negb andb].
  rewrite Rb, Re by lia. destruct (Nat.leb_spec (q * n) (q * n + s)); [|lia]. cbn [andb].
  destruct (Nat.eqb_spec (S q) K); cbn [andb].
  - destruct (Nat.ltb_spec (q * n + s) (q * n + 1)), (Nat.ltb_spec 0 s); try lia; reflexivity.
  - destruct (Nat.ltb_spec (q * n + s) (S q * n)); [reflexivity|lia].
Qed.

Lemma move_centr_len nsens Ns est psf : length (move_shifts_centr nsens Ns est psf) = length psf.
Proof.
  unfold move_shifts_centr. set (f := fun acc q => _). assert (G : forall l acc, length (fold_left f l acc) = length acc).
  { induction l as [|q l IH]; intros acc; [reflexivity|]. cbn [fold_left]. rewrite IH. apply add_range_len. }
  apply G.
Qed.
Lemma move_centr_nth nsens Ns est psf q s : length psf = list_sum nsens -> (q < length nsens)%nat -> (s < nth q nsens 0)%nat ->
  nth (first_sensor nsens q + s) (move_shifts_centr nsens Ns est psf) 0 = nth (first_sensor nsens q + s) psf 0 - nth q est 0 * Ns.
Proof.
  intros Hl Hq Hs. unfold move_shifts_centr. set (f := fun acc q => _). set (p := (first_sensor nsens q + s)%nat).
  pose proof (first_sensor_S nsens q Hq) as ES. pose proof (first_sensor_mono nsens (S q) (length nsens) ltac:(lia)) as ET. rewrite first_sensor_all in ET.
  assert (G : forall n, (n <= length nsens)%nat -> length (fold_left f (seq 0 n) psf) = list_sum nsens /\
    nth p (fold_left f (seq 0 n) psf) 0 = nth p psf 0 - if (q <? n)%nat then nth q est 0 * Ns else 0).
  { induction n as [|n IH]; intros Hn; [split; [exact Hl|]; cbn [seq fold_left]; destruct (Nat.ltb_spec q 0); [lia|ring]|].
    destruct IH as (A & B); [lia|]. rewrite seq_S, fold_left_app. cbn [fold_left Nat.add]. set (z := fold_left f (seq 0 n) psf) in *. unfold f.
    rewrite add_range_len. split; [exact A|]. rewrite nth_add_range by lia. rewrite B.
    change (list_sum (firstn n nsens)) with (first_sensor nsens n). change (list_sum (firstn (S n) nsens)) with (first_sensor nsens (S n)).
    destruct ((first_sensor nsens n <=? p)%nat && (p <? first_sensor nsens (S n))%nat) eqn:Ec.
    - assert (n = q) as -> by (apply (block_unique nsens q n p); lia). destruct (Nat.ltb_spec q q), (Nat.ltb_spec q (S q)); try lia. ring.
    - destruct (Nat.ltb_spec q n), (Nat.ltb_spec q (S n)); try lia; try reflexivity. assert (n = q) as -> by lia. lia. }
  destruct (G (length nsens) (Nat.le_refl _)) as (_ & E). rewrite E. destruct (Nat.ltb_spec q (length nsens)); [reflexivity|lia].
Qed.

Lemma skip_centr_spec k flags : skip_update_centr k flags = true <-> exists q, (q < length flags)%nat /\ q <> k /\ nth q flags None = None.
Proof.
  unfold skip_update_centr. rewrite existsb_exists. split.
  - intros (q & Hq%in_seq & E). exists q. split; [lia|]. destruct (Nat.eqb_spec q k); [discriminate|]. split; [assumption|]. destruct (nth q flags None); [discriminate|reflexivity].
  - intros (q & Hq & Hk & E). exists q. split; [apply in_seq; lia|]. destruct (Nat.eqb_spec q k); [contradiction|]. now rewrite E.
Qed.

Lemma sro_run_centr_spec nsens k N Ns l : (0 < N)%nat -> Forall (wf_centr nsens) l ->
  exists psf outs, sro_run_centr nsens k N Ns l = (psf, outs) /\ length psf = list_sum nsens /\ length outs = length l /\
    (forall q s, (q < length nsens)%nat -> (s < nth q nsens 0)%nat ->
       nth (first_sensor nsens q + s) psf 0 = sumR (length l) (fun t => nth (first_sensor nsens q + s) (extra_shifts_centr nsens k (si_flags (nth t l si0))) 0)
          - Ns * sumR (length l) (fun t => nth q (si_est (nth t l si0)) 0)) /\
    forall i, (i < length l)%nat ->
      (fst (nth i outs (false, [])) = true <-> exists q, (q < length nsens)%nat /\ q <> k /\ nth q (si_flags (nth i l si0)) None = None) /\
      length (snd (nth i outs (false, []))) = length (si_y (nth i l si0)) /\
      forall b q s, (b < length (si_y (nth i l si0)))%nat -> (q < length nsens)%nat -> (s < nth q nsens 0)%nat ->
        entry (snd (nth i outs (false, []))) b (first_sensor nsens q + s) =
        delayed N b (shift_at Ns (fun t => nth (first_sensor nsens q + s) (extra_shifts_centr nsens k (si_flags (nth t l si0))) 0) (fun t => nth q (si_est (nth t l si0)) 0) i)
          (entry (si_y (nth i l si0)) b (first_sensor nsens q + s)).
Proof.
  intros HN. unfold sro_run_centr. induction l as [|x l IH] using rev_ind; intros Hw.
  - exists (repeat 0 (list_sum nsens)), []. cbn [fold_left length sumR]. rewrite repeat_length. split; [reflexivity|]. split; [reflexivity|]. split; [reflexivity|].
    split; [intros q s _ _; rewrite nth_repeat; ring|]. intros i Hi. lia.
  - apply Forall_app in Hw as (Hw & Hx). apply Forall_inv in Hx as (Hf & He & Hy).
    destruct (IH Hw) as (psf & outs & E & Hl & Ho & Hp & Hi). rewrite fold_left_app, E. cbn [fold_left]. unfold sro_step_centr. cbn [fst snd].
    set (xs := extra_shifts_centr nsens k (si_flags x)). pose proof (extra_centr_len nsens k (si_flags x)) as Hxl. fold xs in Hxl.
    assert (Hpl : length (vadd psf xs) = list_sum nsens) by (rewrite vadd_len; lia).
    eexists _, _. split; [reflexivity|]. split; [now rewrite move_centr_len|].
    split; [rewrite !app_length, Ho; reflexivity|].
    assert (Eold : forall t, (t < length l)%nat -> nth t (l ++ [x]) si0 = nth t l si0) by (intros; now rewrite app_nth1).
    assert (Enew : nth (length l) (l ++ [x]) si0 = x) by (rewrite app_nth2, Nat.sub_diag by lia; reflexivity).
    assert (Esum : forall f : sro_in -> R, sumR (length l) (fun t => f (nth t (l ++ [x]) si0)) = sumR (length l) (fun t => f (nth t l si0)))
      by (intros f; apply sumR_ext'; intros t Ht; now rewrite Eold).
    split.
    + intros q s Hq Hs. rewrite move_centr_nth by assumption. rewrite vadd_nth, Hp by (assumption || lia). rewrite app_length. cbn [length]. rewrite Nat.add_1_r, !sumS.
      rewrite Enew. fold xs.
      rewrite (Esum (fun z => nth (first_sensor nsens q + s) (extra_shifts_centr nsens k (si_flags z)) 0)), (Esum (fun z => nth q (si_est z) 0)). ring.
    + rewrite app_length. cbn [length]. intros i Hilt. destruct (Nat.eq_dec i (length l)) as [->|Hne].
      * rewrite Enew. rewrite app_nth2, Ho, Nat.sub_diag by lia. cbn [nth fst snd]. split; [rewrite <- Hf; apply skip_centr_spec|]. split; [apply apply_shifts_len|].
        intros b q s Hb Hq Hs. 
        pose proof (first_sensor_S nsens q Hq) as ES. pose proof (first_sensor_mono nsens (S q) (length nsens) ltac:(lia)) as ET. rewrite first_sensor_all in ET.
        rewrite apply_shifts_entry; [|exact HN|exact Hb| |lia].
        2: { rewrite Hpl. rewrite Forall_forall in Hy. apply Hy. now apply nth_In. }
        f_equal. rewrite vadd_nth, Hp by (assumption || lia). unfold shift_at. rewrite sumS, Enew. fold xs.
        rewrite (Esum (fun z => nth (first_sensor nsens q + s) (extra_shifts_centr nsens k (si_flags z)) 0)), (Esum (fun z => nth q (si_est z) 0)). ring.
      * assert (Hi' : (i < length l)%nat) by lia. destruct (Hi i Hi') as (A & B & C). rewrite Eold by exact Hi'. rewrite app_nth1 by lia.
        split; [exact A|]. split; [exact B|]. intros b q s Hb Hq Hs. rewrite C by assumption. f_equal.
        unfold shift_at. f_equal; [|f_equal]; apply sumR_ext'; intros t Ht; now rewrite Eold by lia.
Qed.
