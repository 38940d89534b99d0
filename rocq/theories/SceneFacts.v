From Verif Require Import Base BaseFacts Level LevelSpec LevelFacts LevelFacts2 LevelFacts3 SigGen SigGenSpec SigGenFacts Scene SceneSpec.
From Coq Require Import QArith Reals Lra.
Local Open Scope R_scope.

Lemma nth_map_len {A B} (f : A -> B) l i d d' : (i < length l)%nat -> nth i (map f l) d' = f (nth i l d).
Proof. intros H. rewrite nth_indep with (d' := f d) by (rewrite map_length; exact H). apply map_nth. Qed.

Lemma row ms k m (rir : list (list ir)) : length rir = list_sum ms -> (k < length ms)%nat -> (m < nth k ms 0)%nat ->
  nth m (sensors_of k (sensor_map ms) rir) [] = nth (before ms k + m) rir [] /\ length (sensors_of k (sensor_map ms) rir) = nth k ms 0%nat.
Proof.
  intros HL Hk Hm. rewrite (sensors_of_spec ms k rir HL Hk). assert (B := before_le ms k Hk).
  split; [|rewrite firstn_length, skipn_length; lia].
  rewrite <- (firstn_skipn (before ms k) rir) at 2.
  rewrite app_nth2; rewrite firstn_length; [|lia]. replace (before ms k + m - Nat.min (before ms k) (length rir))%nat with m by lia.
  rewrite <- (firstn_skipn (nth k ms 0%nat) (skipn (before ms k) rir)) at 2. rewrite app_nth1; [reflexivity|]. rewrite firstn_length, skipn_length. lia.
Qed.

Lemma split_ok ms n_d n_n rir k m : length rir = list_sum ms -> (forall r, In r rir -> length r = (n_d + n_n)%nat) -> (k < length ms)%nat -> (m < nth k ms 0)%nat ->
  responses (split_desired (sensor_map ms) (length ms) n_d rir) k m = firstn n_d (nth (before ms k + m) rir []) /\
  ((0 < n_n)%nat -> responses (split_noise (sensor_map ms) (length ms) n_n rir) k m = skipn n_d (nth (before ms k + m) rir [])) /\
  (n_n = 0%nat -> responses (split_noise (sensor_map ms) (length ms) n_n rir) k m = nth (before ms k + m) rir []).
Proof.
  intros HL Hr Hk Hm. destruct (row ms k m rir HL Hk Hm) as [R1 R2]. unfold responses, split_desired, split_noise.
  assert (B := before_le ms k Hk). assert (I : length (nth (before ms k + m) rir []) = (n_d + n_n)%nat) by (apply Hr, nth_In; lia).
  rewrite !(nth_map_len _ (seq 0 (length ms)) k 0%nat) by (rewrite seq_length; exact Hk). rewrite seq_nth by exact Hk. cbn [Nat.add].
  rewrite !(nth_map_len _ (sensors_of k (sensor_map ms) rir) m []) by lia. rewrite R1.
  split; [reflexivity|]. unfold py_from, py_bound. rewrite I. split.
  - intros Hn. f_equal. destruct (Z.ltb_spec (- Z.of_nat n_n) 0); lia.
  - intros ->. cbn [Z.of_nat Z.opp Z.ltb Z.compare]. replace (Z.to_nat _) with 0%nat by lia. reflexivity.
Qed.

(** ** wet signals *)
Lemma skipn_cons_nth {A} (l : list A) : forall s d, (s < length l)%nat -> skipn s l = nth s l d :: skipn (S s) l.
Proof. induction l as [|a l IH]; intros [|s] d H; cbn in *; try lia; [reflexivity|]. rewrite (IH s d) by lia. reflexivity. Qed.
Lemma fold_left_maps {A B C} (f : A -> B -> A) (g : C -> B) l : forall a, fold_left f (map g l) a = fold_left (fun a c => f a (g c)) l a.
Proof. induction l as [|c l IH]; intros a; [reflexivity|]. cbn [map fold_left]. apply IH. Qed.
Lemma combine_nth_seq {A} (l : list A) i d : (i < length l)%nat -> nth i (combine (seq 0 (length l)) l) (0%nat, d) = (i, nth i l d).
Proof. intros H. rewrite combine_nth by apply seq_length. rewrite seq_nth by exact H. reflexivity. Qed.

Lemma wet_sources_ok xs : forall srcs : list ir, (length srcs <= length xs)%nat ->
  wet_sources xs srcs = Ok (map (fun p => lfilter (fst p) (snd p)) (combine srcs xs)).
Proof.
  unfold wet_sources. intros srcs H.
  assert (G : forall (srcs : list ir) s, (s + length srcs <= length xs)%nat -> mapM (fun q => do x <- get xs (fst q); Ok (lfilter (snd q) x)) (combine (seq s (length srcs)) srcs) = Ok (map (fun p => lfilter (fst p) (snd p)) (combine srcs (skipn s xs)))).
  { clear. induction srcs as [|r srcs IH]; intros s H; [reflexivity|]. cbn [length] in H. cbn [length seq combine mapM fst snd].
    assert (L : (s < length xs)%nat) by lia. unfold get at 1. rewrite (nth_error_nth' xs [] L). cbn [bind]. rewrite (IH (S s)) by lia. cbn [bind].
    rewrite (skipn_cons_nth xs s [] L). reflexivity. }
  exact (G srcs 0%nat ltac:(lia)).
Qed.

Lemma wet_sensor_ok len xs srcs : (forall x, In x xs -> length x = len) -> (length srcs <= length xs)%nat -> wet_sensor len xs srcs = Ok (samples len (received srcs xs)).
Proof.
  intros Hx Hs. unfold wet_sensor. rewrite (wet_sources_ok xs srcs Hs). cbn [bind]. f_equal. rewrite fold_left_maps.
  change (mic_signal len srcs xs = samples len (received srcs xs)). exact (mic_at len srcs xs Hx).
Qed.
Lemma mapM_map_ok {A B} (f : A -> res B) (g : A -> B) l : (forall a, In a l -> f a = Ok (g a)) -> mapM f l = Ok (map g l).
Proof. induction l as [|a l IH]; intros H; [reflexivity|]. cbn [mapM map]. rewrite (H a (or_introl eq_refl)). cbn [bind]. rewrite IH by (intros b Hb; apply H; right; exact Hb). reflexivity. Qed.

Lemma wet_signals_ok len xs irs : (forall x, In x xs -> length x = len) -> complete (length xs) irs ->
  wet_signals len xs irs = Ok (map (map (fun srcs => samples len (received srcs xs))) irs).
Proof.
  intros Hx Hc. unfold wet_signals. apply mapM_map_ok. intros node Hn. apply mapM_map_ok. intros srcs Hs. apply wet_sensor_ok; [exact Hx|].
  destruct (In_nth _ _ [] Hn) as (k & Hk & <-). destruct (In_nth _ _ [] Hs) as (m & Hm & <-). fold (responses irs k m). rewrite (Hc k m Hk Hm). lia.
Qed.

(** ** activity per source *)
Lemma source_vads_ok len xs ref efact nw irs v : (forall x, In x xs -> length x = len) -> complete (length xs) irs -> source_vads xs ref efact nw irs = Ok v ->
  length v = length irs /\ forall k, (k < length irs)%nat -> (ref < length (nth k irs []))%nat /\ length (nth k v []) = length xs /\ forall j, (j < length xs)%nat -> get_vad (samples len (conv_at (nth j (responses irs k ref) []) (nth j xs []))) efact nw = Ok (nth j (nth k v []) []).
Proof.
  intros Hx Hc H. unfold source_vads in H. destruct (mapM_ok_nth _ irs v [] [] H) as [L N]. split; [exact L|]. intros k Hk. specialize (N k Hk). cbn beta in N.
  assert (Hr : (ref < length (nth k irs []))%nat).
  { unfold get in N. destruct (nth_error (nth k irs []) ref) eqn:E; [apply nth_error_Some; rewrite E; discriminate|discriminate N]. }
  split; [exact Hr|]. unfold get in N. rewrite (nth_error_nth' _ [] Hr) in N. cbn [bind] in N. fold (responses irs k ref) in N.
  assert (Lr := Hc k ref Hk Hr). rewrite (wet_sources_ok xs (responses irs k ref)) in N by lia. cbn [bind] in N.
  destruct (mapM_ok_nth _ _ _ [] [] N) as [L2 N2]. rewrite map_length, combine_length, Lr, Nat.min_id in L2, N2. split; [exact L2|]. intros j Hj. specialize (N2 j Hj). cbn beta in N2.
  rewrite (nth_map_len _ _ j ([], [])) in N2 by (rewrite combine_length; lia). rewrite combine_nth in N2 by exact Lr. cbn [fst snd] in N2.
  rewrite lfilter_at in N2. rewrite (Hx (nth j xs []) (nth_In xs [] Hj)) in N2. exact N2.
Qed.

(** ** level of the noise at the reference microphone *)
Lemma at_mic_map {A B} ms mic (f : A -> B) l a : at_mic ms mic l = Ok a -> at_mic ms mic (map (map f) l) = Ok (f a).
Proof.
  unfold at_mic. destruct (ref_mic ms mic) as [[k z]|]; [|discriminate]. cbn [bind fst snd]. unfold get at 1 2. rewrite nth_error_map.
  destruct (nth_error l k) as [node|]; [|discriminate]. cbn [bind option_map]. unfold py_get. rewrite map_length.
  destruct ((0 <=? _) && (_ <? _))%Z; [|discriminate]. unfold get. rewrite nth_error_map. destruct (nth_error node _); [|discriminate]. cbn [option_map]. intros H. injection H as <-. reflexivity.
Qed.

Lemma log10_pow10 x : log10 (pow10 x) = x.
Proof. unfold log10, pow10, Rpower. rewrite ln_exp. assert (0 < ln 10) by (rewrite <- ln_1; apply ln_increasing; lra). field. lra. Qed.

Lemma received_one r x t : received [r] [x] t = conv_at r x t.
Proof. unfold received. cbn [combine map fold_right fst snd]. ring. Qed.

Lemma build_snr snr ms ref efact nw len irs_d irs_n ds n mic d r sc :
  (forall x, In x ds -> length x = len) -> length n = len -> complete (length ds) irs_d -> complete 1 irs_n ->
  at_mic ms mic irs_d = Ok d -> at_mic ms mic irs_n = Ok [r] ->
  0 < energy_of len (received d ds) -> 0 < energy_of len (conv_at r n) ->
  build_scenario (MicBasis mic) snr ms ref efact nw len irs_d irs_n ds [n] = Ok sc -> sc_snr sc = Some snr.
Proof.
  intros Hd Hn Cd Cn Ad An P1 P2 H. unfold build_scenario, noise_levels in H. cbn [length seq combine mapM fst snd noise_level] in H. rewrite Ad, An in H. cbn [bind get nth_error] in H.
  set (n' := noise_for_mic_snr d ds r n snr) in *.
  destruct (mic_snr' d ds r n snr) as [L S]; [intros x Hx; rewrite Hn; apply Hd, Hx|rewrite Hn; exact P1|rewrite Hn; exact P2|]. fold n' in L, S. rewrite Hn in L, S.
  rewrite (wet_signals_ok len ds irs_d Hd Cd) in H. cbn [bind] in H. destruct (source_vads ds ref efact nw irs_d) as [v|]; [|discriminate]. cbn [bind Nat.eqb] in H.
  rewrite (wet_signals_ok len [n'] irs_n) in H by (try exact Cn; intros x [<-|[]]; exact L). cbn [bind] in H.
  rewrite (at_mic_map ms mic _ _ _ Ad), (at_mic_map ms mic _ _ _ An) in H. cbn [bind] in H. injection H as <-. cbn [sc_snr]. f_equal.
  unfold samples. rewrite !energy_at.
  assert (E : energy_of len (received [r] [n']) = energy_of len (conv_at r n')) by (unfold energy_of; f_equal; apply map_ext; intros t; rewrite received_one; reflexivity).
  rewrite E, S. unfold dB_ratio. fold (pow10 (snr / 10)). rewrite log10_pow10. field.
Qed.
