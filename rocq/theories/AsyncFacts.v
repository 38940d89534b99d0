(** Proofs about sampling-rate offsets and the signals of a node. *)
From Verif Require Import Base BaseFacts Level LevelFacts Async.
From Coq Require Import Reals Lra.
Local Open Scope R_scope.

Lemma linspace_len a b n : length (linspace a b n) = n.
Proof. destruct n as [|[|n]]; [reflexivity | reflexivity|]. unfold linspace. rewrite map_length, seq_length. reflexivity. Qed.
Lemma map_seq_nth (f : nat -> R) n i d : (i < n)%nat -> nth i (map f (seq 0 n)) d = f i.
Proof. intros H. rewrite (nth_indep _ d (f 0%nat)) by (rewrite map_length, seq_length; exact H). rewrite (map_nth f). rewrite seq_nth by exact H. reflexivity. Qed.
Lemma linspace_nth a d n k : (k < n)%nat -> nth k (linspace (a + d) (a + d * INR n) n) 0 = a + d * INR (S k).
Proof.
  intros H. destruct n as [|[|n]]; [lia| |].
  - assert (k = 0%nat) by lia. subst. cbn [linspace nth]. rewrite S_INR. cbn [INR]. ring.
  - unfold linspace. rewrite map_seq_nth by exact H. rewrite (S_INR (S n)), (S_INR k). assert (Hn : INR (S n) <> 0) by (apply not_0_INR; lia). field. lra.
Qed.
Lemma get_map_seq (f : nat -> R) n i v : get (map f (seq 0 n)) i = Ok v -> (i < n)%nat /\ v = f i.
Proof.
  unfold get. intros H. destruct (nth_error (map f (seq 0 n)) i) as [w|] eqn:E; [|discriminate]. injection H as ->.
  assert (Hi : (i < n)%nat) by (apply nth_error_Some_lt in E || (assert (L := nth_error_Some (map f (seq 0 n)) i); rewrite E in L; assert (X : Some v <> None) by discriminate; apply L in X; rewrite map_length, seq_length in X; exact X)).
  split; [exact Hi|]. apply (nth_error_nth _ _ 0) in E. rewrite map_seq_nth in E by exact Hi. congruence.
Qed.
Lemma vadd_len x y : length x = length y -> length (vadd x y) = length x.
Proof. intros H. unfold vadd. rewrite map_length, combine_length. lia. Qed.
Lemma vadd_nth x : forall y n, length x = length y -> nth n (vadd x y) 0 = nth n x 0 + nth n y 0.
Proof.
  induction x as [|a x IH]; intros [|b y] n H; try discriminate; [destruct n; cbn; ring|]. destruct n; [reflexivity|]. change (vadd (a :: x) (b :: y)) with (a + b :: vadd x y). cbn [nth]. apply IH. injection H as H. exact H.
Qed.
Section Resample.
Context (resample : list R -> R -> R -> res (list R)).
Lemma sro_spec x fs ppm y t f : resample_for_sro resample x fs ppm = Ok (y, t, f) ->
  f = fs * (1 + ppm / 1000000) /\ length y = length x /\ length t = length x /\ (forall n, (n < length x)%nat -> nth n t 0 = INR n / f) /\
  exists xr, (if Req_EM_T fs f then xr = x else resample x fs f = Ok xr) /\ (forall n, (n < length x)%nat -> nth n y 0 = nth n xr 0).
Proof.
  unfold resample_for_sro. set (fs' := fs * (1 + ppm / 1000000)). intros H.
  destruct (if Req_EM_T fs fs' then Ok x else resample x fs fs') as [xr|] eqn:Ex; [|discriminate]. cbn [bind] in H.
  assert (Hxr : if Req_EM_T fs fs' then xr = x else resample x fs fs' = Ok xr) by (destruct (Req_EM_T fs fs'); [injection Ex as ->; reflexivity | exact Ex]).
  destruct (Nat.leb_spec (length x) (length xr)).
  - injection H as <- <- <-. split; [reflexivity|]. split; [rewrite firstn_length; lia|]. split; [rewrite firstn_length, map_length, seq_length; lia|].
    assert (Nf : forall (l : list R) n m, (n < m)%nat -> nth n (firstn m l) 0 = nth n l 0).
    { induction l as [|a l IH]; intros n m Hn; [rewrite firstn_nil; reflexivity|]. destruct m; [lia|]. destruct n; [reflexivity|]. cbn. apply IH. lia. }
    split; [intros n Hn; rewrite Nf by exact Hn; apply (map_seq_nth (fun n => INR n / fs')); lia|]. exists xr. split; [exact Hxr|]. intros n Hn. apply Nf. exact Hn.
  - destruct (get (map (fun n => INR n / fs') (seq 0 (length xr))) 1) as [t1|] eqn:E1; [|discriminate]. cbn [bind] in H.
    destruct (get (map (fun n => INR n / fs') (seq 0 (length xr))) 0) as [t0|] eqn:E0; [|discriminate]. cbn [bind] in H.
    rewrite map_length, seq_length in H. destruct (get (map (fun n => INR n / fs') (seq 0 (length xr))) (length xr - 1)) as [tl|] eqn:El; [|discriminate]. cbn [bind] in H.
    injection H as <- <- <-. apply get_map_seq in E1, E0, El. destruct E1 as [E1 ->]. destruct E0 as [E0 ->]. destruct El as [El ->].
    split; [reflexivity|]. split; [rewrite app_length, repeat_length; lia|]. split; [rewrite app_length, map_length, seq_length, linspace_len; lia|]. split.
    + intros n Hn. destruct (Nat.ltb_spec n (length xr)).
      * rewrite app_nth1 by (rewrite map_length, seq_length; assumption). apply (map_seq_nth (fun n => INR n / fs')). assumption.
      * rewrite app_nth2 by (rewrite map_length, seq_length; lia). rewrite map_length, seq_length. rewrite linspace_nth by lia.
        replace (S (n - length xr)) with (n - (length xr - 1))%nat by lia. remember (length xr - 1)%nat as m eqn:Em. rewrite minus_INR by lia. cbn [INR]. unfold Rdiv. ring.
    + exists xr. split; [exact Hxr|]. intros n Hn. destruct (Nat.ltb_spec n (length xr)); [apply app_nth1; assumption|]. rewrite app_nth2 by lia. rewrite (nth_overflow xr) by lia. apply nth_repeat.
Qed.
Lemma sro_total x fs ppm xr : let f := fs * (1 + ppm / 1000000) in (if Req_EM_T fs f then xr = x else resample x fs f = Ok xr) -> (length x <= length xr)%nat \/ (2 <= length xr)%nat -> exists p, resample_for_sro resample x fs ppm = Ok p.
Proof.
  intros f Hxr Hl. unfold resample_for_sro. fold f. assert (Ex : (if Req_EM_T fs f then Ok x else resample x fs f) = Ok xr) by (destruct (Req_EM_T fs f); [congruence | exact Hxr]). rewrite Ex. cbn [bind].
  destruct (Nat.leb_spec (length x) (length xr)); [eexists; reflexivity|]. destruct Hl as [Hl|Hl]; [lia|].
  assert (G : forall i, (i < length xr)%nat -> get (map (fun n => INR n / f) (seq 0 (length xr))) i = Ok (INR i / f)).
  { intros i Hi. unfold get. rewrite (nth_error_nth' _ 0) by (rewrite map_length, seq_length; exact Hi). rewrite (map_seq_nth (fun n => INR n / f)) by exact Hi. reflexivity. }
  rewrite map_length, seq_length. rewrite !G by lia. eexists. reflexivity.
Qed.
(** additive resamplers of a length depending on the length only *)
Definition additive : Prop := forall x y f f' a b, length x = length y -> resample x f f' = Ok a -> resample y f f' = Ok b -> length a = length b /\ resample (vadd x y) f f' = Ok (vadd a b).
Lemma sro_add x y fs ppm a ta fa b tb fb : additive -> length x = length y -> resample_for_sro resample x fs ppm = Ok (a, ta, fa) -> resample_for_sro resample y fs ppm = Ok (b, tb, fb) ->
  forall s ts f, resample_for_sro resample (vadd x y) fs ppm = Ok (s, ts, f) -> forall n, (n < length x)%nat -> nth n s 0 = nth n a 0 + nth n b 0.
Proof.
  intros Hadd Hl Ha Hb s ts f Hs n Hn. apply sro_spec in Ha, Hb, Hs. destruct Ha as (-> & A2 & A3 & A4 & xr & A5 & A6). destruct Hb as (-> & B2 & B3 & B4 & yr & B5 & B6). destruct Hs as (-> & C2 & C3 & C4 & sr & C5 & C6).
  rewrite A6, B6, C6; [|rewrite vadd_len by exact Hl; exact Hn | lia | exact Hn].
  destruct (Req_EM_T fs (fs * (1 + ppm / 1000000))); [subst; apply vadd_nth; exact Hl|].
  destruct (Hadd _ _ _ _ _ _ Hl A5 B5) as [D1 D2]. rewrite D2 in C5. injection C5 as <-. apply vadd_nth. exact D1.
Qed.
End Resample.

Lemma combine_nth2 {A B} (a : list A) : forall (b : list B) m da db, length a = length b -> nth m (combine a b) (da, db) = (nth m a da, nth m b db).
Proof. intros b m da db H. apply combine_nth. exact H. Qed.
Lemma madd_nth a b m : length a = length b -> nth m (madd a b) [] = vadd (nth m a []) (nth m b []).
Proof. intros H. unfold madd. change (@nil R) with (vadd (fst (@nil R, @nil R)) (snd (@nil R, @nil R))) at 1. rewrite (map_nth (fun p => vadd (fst p) (snd p))). rewrite combine_nth by exact H. reflexivity. Qed.
Lemma madd_len a b : length a = length b -> length (madd a b) = length a.
Proof. intros H. unfold madd. rewrite map_length, combine_length. lia. Qed.
Definition gain_of (sig noise : list R) (snr : R) : R := pow10 (- (snr - 10 * log10 (power sig / power noise)) / 20).
Lemma self_noise_fst s d snr m : length s = length d -> (m < length s)%nat -> nth m (map fst (self_noise s d snr)) [] = vadd (nth m s []) (scale (gain_of (nth m s []) (nth m d []) snr) (nth m d [])).
Proof.
  intros H Hm. unfold self_noise. rewrite map_map. set (g := fun p : list R * list R => fst (apply_noise (fst p) (snd p) snr)).
  rewrite (nth_indep _ [] (g ([], []))) by (rewrite map_length, combine_length; lia). rewrite (map_nth g), combine_nth by exact H. reflexivity.
Qed.
Lemma self_noise_snd s d snr m : length s = length d -> (m < length s)%nat -> nth m (map snd (self_noise s d snr)) [] = scale (gain_of (nth m s []) (nth m d []) snr) (nth m d []).
Proof.
  intros H Hm. unfold self_noise. rewrite map_map. set (g := fun p : list R * list R => snd (apply_noise (fst p) (snd p) snr)).
  rewrite (nth_indep _ [] (g ([], []))) by (rewrite map_length, combine_length; lia). rewrite (map_nth g), combine_nth by exact H. reflexivity.
Qed.
Lemma scale_nth g x n : nth n (scale g x) 0 = g * nth n x 0.
Proof. unfold scale. replace 0 with (g * 0) at 1 by ring. apply map_nth. Qed.
Lemma scale_len g x : length (scale g x) = length x. Proof. apply map_length. Qed.
Definition rect (M N : nat) (a : list (list R)) : Prop := length a = M /\ forall c, In c a -> length c = N.
Lemma rect_nth M N a m : rect M N a -> (m < M)%nat -> length (nth m a []) = N.
Proof. intros [H1 H2] H. apply H2. apply nth_In. lia. Qed.
Lemma rect_intro M N a : length a = M -> (forall m, (m < M)%nat -> length (nth m a []) = N) -> rect M N a.
Proof. intros H1 H2. split; [exact H1|]. intros c Hc. destruct (In_nth a c [] Hc) as (m & Hm & <-). apply H2. lia. Qed.
Lemma rect_madd M N a b : rect M N a -> rect M N b -> rect M N (madd a b).
Proof.
  intros Ha Hb. assert (L : length a = length b) by (destruct Ha, Hb; lia). apply rect_intro; [rewrite madd_len by exact L; apply Ha|]. intros m Hm. rewrite madd_nth by exact L.
  rewrite vadd_len; [apply (rect_nth M); assumption|]. rewrite (rect_nth M N a m Ha Hm), (rect_nth M N b m Hb Hm). reflexivity.
Qed.

Section Node.
Context (resample : list R -> R -> R -> res (list R)).
Notation rs := (resample_for_sro resample).
Lemma async_spec cols fs ppm : forall cs l, apply_async resample cols fs ppm = Ok (cs, l) -> length cs = length cols /\
  (forall m, (m < length cols)%nat -> exists t f, rs (nth m cols []) fs ppm = Ok (nth m cs [], t, f)) /\
  (cols = [] -> l = None) /\ (cols <> [] -> exists t f y, l = Some (t, f) /\ rs (nth (length cols - 1) cols []) fs ppm = Ok (y, t, f)).
Proof.
  induction cols as [|x cols IH]; intros cs l H.
  - injection H as <- <-. split; [reflexivity|]. split; [intros m Hm; cbn in Hm; lia|]. split; [reflexivity | congruence].
  - cbn [apply_async] in H. destruct (rs x fs ppm) as [[[x' t] f]|] eqn:Ex; [|discriminate]. cbn [bind] in H. destruct (apply_async resample cols fs ppm) as [[r' last]|] eqn:Er; [|discriminate]. cbn [bind] in H. injection H as <- <-.
    destruct (IH r' last eq_refl) as (I1 & I2 & I3 & I4). split; [cbn; lia|]. split.
    + intros [|m] Hm; [exists t, f; exact Ex|]. cbn in Hm. cbn [nth]. apply I2. lia.
    + split; [discriminate|]. intros _. destruct cols as [|x2 cols].
      * rewrite (I3 eq_refl). exists t, f, x'. split; [reflexivity | exact Ex].
      * destruct (I4 ltac:(discriminate)) as (t2 & f2 & y & -> & Hy). exists t2, f2, y. split; [reflexivity|].
        replace (length (x :: x2 :: cols) - 1)%nat with (S (length (x2 :: cols) - 1)) by (cbn; lia). exact Hy.
Qed.
Lemma asyncnode_spec M N cols fs ppm cs t f : rect M N cols -> apply_asynchronicity_at_node resample cols fs ppm = Ok (cs, t, f) ->
  (0 < M)%nat /\ rect M N cs /\ f = fs * (1 + ppm / 1000000) /\ length t = N /\ (forall n, (n < N)%nat -> nth n t 0 = INR n / f) /\
  forall m, (m < M)%nat -> exists t f, rs (nth m cols []) fs ppm = Ok (nth m cs [], t, f).
Proof.
  intros Hr H. unfold apply_asynchronicity_at_node in H. destruct (apply_async resample cols fs ppm) as [[cs' l]|] eqn:E; [|discriminate]. cbn [bind] in H.
  destruct l as [[t' f']|]; [|discriminate]. injection H as -> -> ->. destruct (async_spec _ _ _ _ _ E) as (S1 & S2 & S3 & S4).
  assert (Hne : cols <> []) by (intros C; specialize (S3 C); discriminate). destruct (S4 Hne) as (t2 & f2 & y & Heq & Hy). injection Heq as <- <-.
  assert (HM : length cols = M) by apply Hr. assert (HM0 : (0 < M)%nat) by (destruct cols; [congruence | cbn in HM; lia]).
  pose proof (sro_spec _ _ _ _ _ _ _ Hy) as (T1 & T2 & T3 & T4 & _). rewrite (rect_nth M N cols) in T3, T4 by (exact Hr || lia).
  split; [exact HM0|]. split.
  - apply rect_intro; [lia|]. intros m Hm. rewrite HM in S2. destruct (S2 m Hm) as (tm & fm & Hm2). apply sro_spec in Hm2. destruct Hm2 as (_ & -> & _). apply (rect_nth M); assumption.
  - split; [exact T1|]. split; [exact T3|]. split; [exact T4|]. rewrite HM in S2. exact S2.
Qed.
Lemma sro_same x fs ppm y t f : fs * (1 + ppm / 1000000) = fs -> rs x fs ppm = Ok (y, t, f) -> forall n, (n < length x)%nat -> nth n y 0 = nth n x 0.
Proof.
  intros He H n Hn. apply sro_spec in H. destruct H as (-> & _ & _ & _ & xr & H1 & H2). rewrite He in H1. destruct (Req_EM_T fs fs); [|congruence]. subst. apply H2. exact Hn.
Qed.
Lemma nth_zeros (x : list R) n : nth n (map (fun _ : R => 0) x) 0 = 0.
Proof. revert n. induction x as [|a x IH]; intros [|n]; try reflexivity. apply IH. Qed.
Lemma vadd_zero (x : list R) : vadd (map (fun _ : R => 0) x) (map (fun _ : R => 0) x) = map (fun _ : R => 0) x.
Proof. induction x as [|a x IH]; [reflexivity|]. unfold vadd in *. cbn [map combine fst snd]. f_equal; [ring | exact IH]. Qed.

Lemma decomposition M N speech noise diffuse draws draws0 snr fs ppm ns :
  additive resample -> rect M N speech -> (forall a, noise = Some a -> rect M N a) -> (forall a, diffuse = Some a -> rect M N a) -> rect M N draws -> rect M N draws0 ->
  diffuse = None \/ fs * (1 + ppm / 1000000) = fs ->
  node_signals resample speech noise diffuse draws draws0 snr fs ppm = Ok ns ->
  exists g g0 : nat -> R, (forall m, 0 < g m /\ 0 < g0 m) /\ forall m n, (m < M)%nat -> (n < N)%nat ->
    nth n (nth m (ns_data ns) []) 0 = nth n (nth m (ns_clean ns) []) 0 + nth n (nth m (ns_noise ns) []) 0 + (g m * nth n (nth m draws []) 0 - g 0%nat * nth n (nth 0 draws []) 0) /\
    nth n (nth m (ns_data0 ns) []) 0 = nth n (nth m (ns_clean0 ns) []) 0 + nth n (nth m (ns_noise0 ns) []) 0 + (g0 m * nth n (nth m draws0 []) 0 - g 0%nat * nth n (nth 0 draws []) 0).
Proof.
  intros Hadd Hsp Hno Hdi Hdr Hdr0 Hcase H. unfold node_signals in H. cbv zeta in H.
  set (mix := match noise with Some n => madd n speech | None => speech end) in H.
  assert (Hmix : rect M N mix) by (unfold mix; destruct noise as [a|]; [apply rect_madd; [apply Hno; reflexivity | exact Hsp] | exact Hsp]).
  destruct (apply_asynchronicity_at_node resample mix fs ppm) as [[[s t] f]|] eqn:Ea; [|discriminate]. cbn [bind] in H.
  set (s1 := match diffuse with Some d => madd s d | None => s end) in H. set (s0 := match diffuse with Some d => madd mix d | None => mix end) in H.
  destruct (asyncnode_spec M N _ _ _ _ _ _ Hmix Ea) as (HM & Hs & Hf & Ht & Htn & Hcol).
  assert (Hs1 : rect M N s1) by (unfold s1; destruct diffuse as [d|]; [apply rect_madd; [exact Hs | apply Hdi; reflexivity] | exact Hs]).
  assert (Hs0 : rect M N s0) by (unfold s0; destruct diffuse as [d|]; [apply rect_madd; [exact Hmix | apply Hdi; reflexivity] | exact Hmix]).
  destruct (get (map snd (self_noise s1 draws snr)) 0) as [ref|] eqn:Eref; [|discriminate]. cbn [bind] in H.
  destruct (apply_asynchronicity_at_node resample speech fs ppm) as [[[clean tc] fc]|] eqn:Eb; [|discriminate]. cbn [bind] in H.
  destruct (asyncnode_spec M N _ _ _ _ _ _ Hsp Eb) as (_ & Hcl & _ & _ & _ & Hccol).
  set (no0 := match noise with Some n => n | None => map (map (fun _ => 0)) clean end) in H.
  assert (Hno0 : rect M N no0).
  { unfold no0. destruct noise as [a|]; [apply Hno; reflexivity|]. apply rect_intro; [rewrite map_length; apply Hcl|]. intros m Hm. change (@nil R) with (map (fun _ : R => 0) []). rewrite map_nth, map_length. apply (rect_nth M); assumption. }
  set (no := match diffuse with Some d => madd no0 d | None => no0 end) in H.
  assert (Hnor : rect M N no) by (unfold no; destruct diffuse as [d|]; [apply rect_madd; [exact Hno0 | apply Hdi; reflexivity] | exact Hno0]).
  destruct (apply_asynchronicity_at_node resample no fs ppm) as [[[nz tn] fn]|] eqn:Ec; [|discriminate]. cbn [bind] in H. injection H as <-. cbn [ns_data ns_data0 ns_clean ns_clean0 ns_noise ns_noise0].
  destruct (asyncnode_spec M N _ _ _ _ _ _ Hnor Ec) as (_ & Hnz & _ & _ & _ & Hncol).
  assert (Lds : length s1 = length draws) by (destruct Hs1, Hdr; lia). assert (Lds0 : length s0 = length draws0) by (destruct Hs0, Hdr0; lia).
  assert (Ls1 : length s1 = M) by apply Hs1. assert (Ls0 : length s0 = M) by apply Hs0.
  exists (fun m => gain_of (nth m s1 []) (nth m draws []) snr), (fun m => gain_of (nth m s0 []) (nth m draws0 []) snr).
  split; [intros m; split; apply pow10_pos|]. intros m n Hm Hn.
  assert (Href : ref = scale (gain_of (nth 0 s1 []) (nth 0 draws []) snr) (nth 0 draws [])).
  { rewrite <- self_noise_snd by lia. unfold get in Eref. destruct (nth_error _ 0) as [r|] eqn:Er; [|discriminate]. injection Eref as ->. symmetry. apply (nth_error_nth _ _ []). exact Er. }
  assert (Lref : length ref = N) by (rewrite Href, scale_len; apply (rect_nth M); assumption).
  assert (Vref : nth n ref 0 = gain_of (nth 0 s1 []) (nth 0 draws []) snr * nth n (nth 0 draws []) 0) by (rewrite Href; apply scale_nth).
  assert (Lin : forall a, rect M N a -> length (nth m a []) = N) by (intros a Ha; apply (rect_nth M); assumption).
  assert (Vn : forall a, rect M N a -> nth n (nth m (map (fun x => vadd x ref) a) []) 0 = nth n (nth m a []) 0 + nth n ref 0).
  { intros a Ha. rewrite (nth_indep _ [] (vadd [] ref)) by (rewrite map_length; destruct Ha; lia). rewrite (map_nth (fun x => vadd x ref)). apply vadd_nth. rewrite (Lin a Ha). congruence. }
  rewrite !Vn by assumption. rewrite !self_noise_fst by lia. rewrite !vadd_nth by (rewrite scale_len, !Lin by assumption; reflexivity). rewrite !scale_nth, Vref.
  assert (Lall : length mix = M /\ length s = M /\ length speech = M /\ length no0 = M) by (destruct Hmix, Hs, Hsp, Hno0; repeat split; assumption). destruct Lall as (LL1 & LL2 & LL3 & LL4).
  assert (Zero : noise = None -> nth n (nth m no0 []) 0 = 0).
  { intros ->. unfold no0. change (@nil R) with (map (fun _ : R => 0) []). rewrite map_nth. apply nth_zeros. }
  assert (Vmix : nth n (nth m mix []) 0 = nth n (nth m no0 []) 0 + nth n (nth m speech []) 0).
  { unfold mix. destruct noise as [a|]; [|rewrite (Zero eq_refl); ring]. assert (Ra : rect M N a) by (apply Hno; reflexivity). rewrite madd_nth by (destruct Ra; lia). rewrite vadd_nth by (rewrite !Lin by assumption; reflexivity). reflexivity. }
  destruct (Hcol m Hm) as (t1 & f1 & C1). destruct (Hccol m Hm) as (t2 & f2 & C2). destruct (Hncol m Hm) as (t3 & f3 & C3).
  split.
  - destruct diffuse as [d|].
    + destruct Hcase as [C|He]; [discriminate|]. assert (Rd : rect M N d) by (apply Hdi; reflexivity). unfold s1. rewrite madd_nth by (destruct Rd; lia). rewrite vadd_nth by (rewrite !Lin by assumption; reflexivity).
      rewrite (sro_same _ _ _ _ _ _ He C1) by (rewrite Lin by assumption; exact Hn). rewrite (sro_same _ _ _ _ _ _ He C2) by (rewrite Lin by assumption; exact Hn). rewrite (sro_same _ _ _ _ _ _ He C3) by (rewrite Lin by assumption; exact Hn).
      rewrite Vmix. unfold no. rewrite madd_nth by (destruct Rd; lia). rewrite vadd_nth by (rewrite !Lin by assumption; reflexivity). ring.
    + unfold s1. assert (E1 : nth n (nth m s []) 0 = nth n (nth m nz []) 0 + nth n (nth m clean []) 0); [|rewrite E1; ring]. subst no s0 s1.
      unfold mix in C1. destruct noise as [a|].
      * assert (Ra : rect M N a) by (apply Hno; reflexivity). rewrite madd_nth in C1 by (destruct Ra; lia). unfold no0 in C3.
        apply (sro_add resample _ _ _ _ _ _ _ _ _ _ Hadd (eq_trans (Lin a Ra) (eq_sym (Lin speech Hsp))) C3 C2 _ _ _ C1). rewrite Lin by assumption. exact Hn.
      * assert (Z0 : nth n (nth m nz []) 0 = 0).
        { assert (X : nth n (nth m nz []) 0 = nth n (nth m nz []) 0 + nth n (nth m nz []) 0); [|lra].
          assert (Ez : vadd (nth m no0 []) (nth m no0 []) = nth m no0 []). { unfold no0. change (@nil R) with (map (fun _ : R => 0) []). rewrite map_nth. apply vadd_zero. }
          pose proof C3 as C3'. rewrite <- Ez in C3'. apply (sro_add resample _ _ _ _ _ _ _ _ _ _ Hadd eq_refl C3 C3 _ _ _ C3'). rewrite Lin by assumption. exact Hn. }
        rewrite Z0, Rplus_0_l. rewrite C1 in C2. injection C2 as -> _ _. reflexivity.
  - unfold s0, no. destruct diffuse as [d|].
    + assert (Rd : rect M N d) by (apply Hdi; reflexivity). rewrite !madd_nth by (destruct Rd; lia). rewrite !vadd_nth by (rewrite !Lin by assumption; reflexivity). rewrite Vmix. ring.
    + rewrite Vmix. ring.
Qed.
End Node.

Section Total.
Context (resample : list R -> R -> R -> res (list R)).
Definition usable : Prop := forall x f f', exists xr, resample x f f' = Ok xr /\ ((length x <= length xr)%nat \/ (2 <= length xr)%nat).
Lemma async_total cols fs ppm : usable -> cols <> [] -> exists p, apply_asynchronicity_at_node resample cols fs ppm = Ok p.
Proof.
  intros Hu Hc. unfold apply_asynchronicity_at_node.
  assert (E : forall cols, exists cs l, apply_async resample cols fs ppm = Ok (cs, l)).
  { intros l. induction l as [|x r (cs & l & IH)]; [exists [], None; reflexivity|]. cbn [apply_async].
    assert (X : exists p, resample_for_sro resample x fs ppm = Ok p).
    { destruct (Hu x fs (fs * (1 + ppm / 1000000))) as (xr & X1 & X2). destruct (Req_EM_T fs (fs * (1 + ppm / 1000000))) as [e|e].
      - apply (sro_total resample x fs ppm x); [destruct (Req_EM_T _ _); [reflexivity | contradiction] | left; lia].
      - apply (sro_total resample x fs ppm xr); [destruct (Req_EM_T _ _); [contradiction | exact X1] | exact X2]. }
    destruct X as [[[y t] f] ->]. cbn [bind]. rewrite IH. cbn [bind]. eexists. eexists. reflexivity. }
  destruct (E cols) as (cs & l & He). rewrite He. cbn [bind]. destruct (async_spec resample _ _ _ _ _ He) as (_ & _ & _ & H4). destruct (H4 Hc) as (t & f & y & -> & _). eexists. reflexivity.
Qed.
Lemma node_signals_total M N speech noise diffuse draws draws0 snr fs ppm : usable -> (0 < M)%nat ->
  rect M N speech -> (forall a, noise = Some a -> rect M N a) -> (forall a, diffuse = Some a -> rect M N a) -> rect M N draws ->
  exists ns, node_signals resample speech noise diffuse draws draws0 snr fs ppm = Ok ns.
Proof.
  intros Hu HM Hsp Hno Hdi Hdr. unfold node_signals. cbv zeta. set (mix := match noise with Some n => madd n speech | None => speech end).
  assert (Hmix : rect M N mix) by (unfold mix; destruct noise as [a|]; [apply rect_madd; [apply Hno; reflexivity | exact Hsp] | exact Hsp]).
  assert (Ne : forall a, rect M N a -> a <> []) by (intros a [L _] ->; cbn in L; lia).
  destruct (async_total mix fs ppm Hu (Ne _ Hmix)) as [[[s t] f] Ea]. rewrite Ea. cbn [bind]. destruct (asyncnode_spec resample M N _ _ _ _ _ _ Hmix Ea) as (_ & Hs & _).
  set (s1 := match diffuse with Some d => madd s d | None => s end).
  assert (Hs1 : rect M N s1) by (unfold s1; destruct diffuse as [d|]; [apply rect_madd; [exact Hs | apply Hdi; reflexivity] | exact Hs]).
  assert (G : exists r, get (map snd (self_noise s1 draws snr)) 0 = Ok r).
  { destruct Hs1 as [L1 _]. destruct Hdr as [L2 _]. destruct s1; [cbn in L1; lia|]. destruct draws; [cbn in L2; lia|]. eexists. reflexivity. }
  destruct G as [r ->]. cbn [bind]. destruct (async_total speech fs ppm Hu (Ne _ Hsp)) as [[[cl tc] fc] Eb]. rewrite Eb. cbn [bind].
  destruct (asyncnode_spec resample M N _ _ _ _ _ _ Hsp Eb) as (_ & Hcl & _).
  set (no0 := match noise with Some n => n | None => map (map (fun _ => 0)) cl end).
  assert (Hno0 : rect M N no0).
  { unfold no0. destruct noise as [a|]; [apply Hno; reflexivity|]. apply rect_intro; [rewrite map_length; apply Hcl|]. intros m Hm. change (@nil R) with (map (fun _ : R => 0) []). rewrite map_nth, map_length. apply (rect_nth M); assumption. }
  set (no := match diffuse with Some d => madd no0 d | None => no0 end).
  assert (Hnor : rect M N no) by (unfold no; destruct diffuse as [d|]; [apply rect_madd; [exact Hno0 | apply Hdi; reflexivity] | exact Hno0]).
  destruct (async_total no fs ppm Hu (Ne _ Hnor)) as [[[nz tn] fn] Ec]. rewrite Ec. cbn [bind]. eexists. reflexivity.
Qed.
End Total.
