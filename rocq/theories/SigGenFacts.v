(** Proofs about scenario generation. *)
From Verif Require Import Base BaseFacts SigGen SigGenSpec.
From Coq Require Import QArith Reals Lra.
Open Scope nat_scope.

(** ** Sensor map *)
Fixpoint smap (k : nat) (ms : list nat) : list nat :=
  match ms with [] => [] | m :: ms' => repeat k m ++ smap (S k) ms' end.
Lemma sensor_map_smap ms : sensor_map ms = smap 0 ms.
Proof.
  unfold sensor_map. generalize 0. induction ms as [|m ms IH]; intros k; [reflexivity|]. cbn [List.length seq combine flat_map smap fst snd].
  rewrite <- IH. reflexivity.
Qed.
Lemma smap_length ms : forall k, length (smap k ms) = list_sum ms.
Proof. induction ms as [|m ms IH]; intros k; [reflexivity|]. cbn [smap]. rewrite app_length, repeat_length, IH. reflexivity. Qed.

Lemma smap_nth ms : forall s j k, nth_error (smap s ms) j = Some k <-> exists k', k = s + k' /\ belongs ms j k'.
Proof.
  induction ms as [|m ms IH]; intros s j k; cbn [smap].
  - split; [destruct j; discriminate|]. intros (k' & _ & _ & H). cbn in H. lia.
  - destruct (lt_dec j m) as [Hj|Hj].
    + rewrite nth_error_app1 by (rewrite repeat_length; exact Hj). rewrite nth_error_repeat by exact Hj. split.
      * intros H. injection H as <-. exists 0. split; [lia|]. unfold belongs, before. cbn. lia.
      * intros (k' & -> & [H1 H2]). destruct k' as [|k']; [f_equal; lia|]. exfalso. unfold before in H1. simpl in H1. lia.
    + rewrite nth_error_app2 by (rewrite repeat_length; lia). rewrite repeat_length, IH. split.
      * intros (k' & -> & [H1 H2]). exists (S k'). split; [lia|]. unfold belongs, before in *. simpl. lia.
      * intros (k' & -> & [H1 H2]). destruct k' as [|k']; [unfold before in H1; simpl in H1; lia|]. exists k'. split; [lia|].
        unfold belongs, before in *. simpl in H1, H2. lia.
Qed.
Lemma sensor_map_spec ms j k : nth_error (sensor_map ms) j = Some k <-> belongs ms j k.
Proof.
  rewrite sensor_map_smap, smap_nth. split; [intros (k' & -> & H); exact H | intros H; exists k; auto].
Qed.
Lemma sensor_map_length ms : length (sensor_map ms) = list_sum ms.
Proof. rewrite sensor_map_smap. apply smap_length. Qed.

Lemma combine_app {A B} (a a' : list A) (b b' : list B) : length a = length b -> combine (a ++ a') (b ++ b') = combine a b ++ combine a' b'.
Proof. revert b. induction a as [|x a IH]; intros [|y b] H; try discriminate; [reflexivity|]. cbn. f_equal. apply IH. injection H as H. exact H. Qed.

Lemma smap_ge ms : forall s k, In k (smap s ms) -> s <= k.
Proof.
  induction ms as [|m ms IH]; intros s k H; [destruct H|]. cbn [smap] in H. apply in_app_or in H. destruct H as [H|H].
  - apply repeat_spec in H. lia. - apply IH in H. lia.
Qed.
Lemma filter_repeat_same {A} k m (x : list A) : length x = m -> map snd (filter (fun nx => Nat.eqb (fst nx) k) (combine (repeat k m) x)) = x.
Proof. revert x. induction m as [|m IH]; intros [|a x] H; try discriminate; [reflexivity|]. cbn. rewrite Nat.eqb_refl. cbn. f_equal. apply IH. injection H as H. exact H. Qed.
Lemma filter_none {A} k l (x : list A) : ~ In k l -> filter (fun nx => Nat.eqb (fst nx) k) (combine l x) = [].
Proof.
  revert x. induction l as [|a l IH]; intros [|b x] H; try reflexivity. cbn. destruct (Nat.eqb_spec a k) as [->|]; [exfalso; apply H; left; reflexivity|].
  apply IH. intros H'. apply H. right. exact H'.
Qed.
Lemma smap_select {A} ms : forall s k (x : list A), length x = list_sum ms -> k < length ms ->
  map snd (filter (fun nx => Nat.eqb (fst nx) (s + k)) (combine (smap s ms) x)) = firstn (nth k ms 0) (skipn (before ms k) x).
Proof.
  induction ms as [|m ms IH]; intros s k x Hx Hk; [cbn in Hk; lia|]. cbn [smap]. change (list_sum (m :: ms)) with (m + list_sum ms) in Hx.
  rewrite <- (firstn_skipn m x) at 1. rewrite combine_app by (rewrite repeat_length, firstn_length; lia). rewrite filter_app, map_app.
  destruct k as [|k].
  - rewrite Nat.add_0_r. rewrite filter_repeat_same by (rewrite firstn_length; lia).
    rewrite filter_none by (intros H; apply smap_ge in H; lia). cbn. rewrite app_nil_r. reflexivity.
  - rewrite (filter_none (s + S k) (repeat s m)) by (intros H; apply repeat_spec in H; lia). cbn [map app].
    replace (s + S k) with (S s + k) by lia. rewrite IH; [|rewrite skipn_length; lia | cbn in Hk; lia].
    cbn [nth]. unfold before. change (firstn (S k) (m :: ms)) with (m :: firstn k ms). change (list_sum (m :: firstn k ms)) with (m + list_sum (firstn k ms)).
    f_equal. clear. revert x. induction m as [|m IH]; intros [|a x]; try reflexivity; [cbn; rewrite skipn_nil; reflexivity|]. cbn. apply IH.
Qed.
Lemma sensors_of_spec {A} ms k (x : list A) : length x = list_sum ms -> k < length ms ->
  sensors_of k (sensor_map ms) x = firstn (nth k ms 0) (skipn (before ms k) x).
Proof. intros H1 H2. unfold sensors_of. rewrite sensor_map_smap. apply (smap_select ms 0 k x H1 H2). Qed.

Lemma blocks_concat {A} ms (x : list A) : length x = list_sum ms ->
  concat (map (fun k => firstn (nth k ms 0) (skipn (before ms k) x)) (seq 0 (length ms))) = x.
Proof.
  revert x. induction ms as [|m ms IH]; intros x Hx; [destruct x; [reflexivity | discriminate]|].
  change (list_sum (m :: ms)) with (m + list_sum ms) in Hx. cbn [List.length seq map concat]. rewrite <- seq_shift, map_map.
  transitivity (firstn m x ++ skipn m x); [|apply firstn_skipn]. cbn [nth]. unfold before at 1. cbn [firstn list_sum fold_right skipn]. f_equal.
  etransitivity; [|apply (IH (skipn m x)); rewrite skipn_length; lia]. f_equal. apply map_ext. intros k. cbn [nth]. f_equal.
  unfold before. change (firstn (S k) (m :: ms)) with (m :: firstn k ms). change (list_sum (m :: firstn k ms)) with (m + list_sum (firstn k ms)).
  clear. revert x. induction m as [|m IH]; intros [|a x]; try reflexivity; [cbn; rewrite skipn_nil; reflexivity|]. cbn. apply IH.
Qed.

Lemma before_le ms k : k < length ms -> before ms k + nth k ms 0 <= list_sum ms.
Proof.
  revert k. induction ms as [|m ms IH]; intros [|k] H; cbn in H; try lia; [simpl; lia|]. unfold before in *. simpl. specialize (IH k ltac:(lia)). lia.
Qed.

Lemma fold_max_le l b : (forall x, In x l -> x <= b) -> fold_right Nat.max 0 l <= b.
Proof. induction l as [|a l IH]; intros H; cbn; [lia|]. apply Nat.max_lub; [apply H; left; reflexivity | apply IH; intros; apply H; right; assumption]. Qed.
Lemma fold_max_ge l x : In x l -> x <= fold_right Nat.max 0 l.
Proof. induction l as [|a l IH]; intros H; [destruct H|]. cbn. destruct H as [->|H]; [lia|]. specialize (IH H). lia. Qed.
Lemma num_nodes_spec ms : ms <> [] -> nth (length ms - 1) ms 0 > 0 -> num_nodes (sensor_map ms) = Ok (length ms).
Proof.
  intros Hn Hl. assert (HL : 0 < length ms) by (destruct ms; [congruence | cbn; lia]).
  assert (Hin : In (length ms - 1) (sensor_map ms)).
  { apply (nth_error_In _ (before ms (length ms - 1))). apply sensor_map_spec. unfold belongs. lia. }
  unfold num_nodes. destruct (sensor_map ms) as [|a l] eqn:E; [destruct Hin|]. rewrite <- E in *. f_equal.
  assert (H1 := fold_max_ge _ _ Hin). assert (H2 : fold_right Nat.max 0 (sensor_map ms) <= length ms - 1); [|lia].
  apply fold_max_le. intros x Hx. apply In_nth_error in Hx. destruct Hx as [j Hj]. apply sensor_map_spec in Hj. destruct Hj. lia.
Qed.

(** ** Topology *)
Lemma all_entries_spec n f : all_entries n f = true <-> forall i j, i < n -> j < n -> f i j = true.
Proof.
  unfold all_entries. rewrite forallb_forall. split.
  - intros H i j Hi Hj. assert (H1 := H i ltac:(apply in_seq; lia)). rewrite forallb_forall in H1. apply H1, in_seq. lia.
  - intros H i Hi. apply forallb_forall. intros j Hj. apply in_seq in Hi, Hj. apply H; lia.
Qed.
Lemma dist3_sym a b : dist3 a b = dist3 b a.
Proof. destruct a as [[ax ay] az], b as [[bx byy] bz]. unfold dist3. f_equal. ring. Qed.

Lemma conn_sym n t m : conn_matrix n t = Ok m -> forall i j, i < n -> j < n -> m i j = m j i.
Proof.
  unfold conn_matrix. destruct t as [|d|c mx|u|]; intros H i j Hi Hj.
  - injection H as <-. reflexivity.
  - injection H as <-. destruct (lt_eq_lt_dec i j) as [[Hl| ->]|Hl]; [| reflexivity |].
    + destruct (Nat.leb_spec i j); [|lia]. destruct (Nat.ltb_spec j i); [lia|]. destruct (Nat.leb_spec j i); [lia|]. destruct (Nat.ltb_spec i j); [|lia].
      cbn. rewrite orb_false_r. reflexivity.
    + destruct (Nat.leb_spec i j); [lia|]. destruct (Nat.ltb_spec j i); [|lia]. destruct (Nat.leb_spec j i); [|lia]. destruct (Nat.ltb_spec i j); [lia|].
      cbn. rewrite orb_false_r. reflexivity.
  - injection H as <-. rewrite (dist3_sym (c j) (c i)). reflexivity.
  - destruct (negb (_ && _)); [discriminate|]. destruct (negb (all_entries n _)) eqn:E1; [discriminate|]. destruct (negb (all_entries n (fun i j => _ =? _)%Z)) eqn:E2; [discriminate|].
    injection H as <-. apply negb_false_iff in E2. rewrite all_entries_spec in E2. specialize (E2 i j Hi Hj). lia.
  - discriminate.
Qed.

Lemma sorted_filter_seq f n : StronglySorted lt (filter f (seq 0 n)).
Proof.
  generalize 0. induction n as [|n IH]; intros s; cbn [seq filter]; [constructor|].
  destruct (f s); [|apply IH]. constructor; [apply IH|]. apply Forall_forall. intros x Hx. apply filter_In in Hx. destruct Hx as [Hx _]. apply in_seq in Hx. lia.
Qed.

Lemma get_topo_spec s2n t nbrs : get_topo s2n t = Ok nbrs ->
  num_nodes s2n = Ok (length nbrs) /\ exists m, conn_matrix (length nbrs) t = Ok m /\
  forall k, k < length nbrs -> nth_error nbrs k = Some (filter (fun j => (0 <? m j k)%Z && negb (Nat.eqb j k)) (seq 0 (length nbrs))).
Proof.
  unfold get_topo. destruct (num_nodes s2n) as [n|] eqn:E; [|discriminate]. cbn [bind]. destruct (conn_matrix n t) as [m|] eqn:Em; [|discriminate].
  cbn [bind]. intros H. injection H as <-. rewrite map_length, seq_length. split; [reflexivity|]. exists m. split; [exact Em|]. intros k Hk.
  rewrite nth_error_map. rewrite (nth_error_nth' _ 0) by (rewrite seq_length; exact Hk). rewrite seq_nth by exact Hk. reflexivity.
Qed.

Lemma get_topo_ok s2n t nbrs : get_topo s2n t = Ok nbrs ->
  (forall k l, nth_error nbrs k = Some l -> StronglySorted lt l /\ ~ In k l /\ forall q, In q l -> q < length nbrs) /\
  (forall k q, neighbour nbrs k q <-> neighbour nbrs q k).
Proof.
  intros H. destruct (get_topo_spec _ _ _ H) as (_ & m & Hm & Hk). clear H. split.
  - intros k l Hl. assert (Hlt : k < length nbrs) by (apply nth_error_Some; congruence). rewrite (Hk k Hlt) in Hl. injection Hl as <-.
    split; [apply sorted_filter_seq|]. split.
    + intros Hin. apply filter_In in Hin. destruct Hin as [_ Hin]. rewrite Nat.eqb_refl, andb_false_r in Hin. discriminate.
    + intros q Hq. apply filter_In in Hq. destruct Hq as [Hq _]. apply in_seq in Hq. lia.
  - assert (G : forall k q, neighbour nbrs k q -> neighbour nbrs q k); [|intros k q; split; apply G].
    intros k q [l [Hl Hq]]. assert (Hlt : k < length nbrs) by (apply nth_error_Some; congruence). rewrite (Hk k Hlt) in Hl. injection Hl as <-.
    apply filter_In in Hq. destruct Hq as [Hq1 Hq2]. apply in_seq in Hq1. apply andb_true_iff in Hq2. destruct Hq2 as [Hq2 Hq3].
    exists (filter (fun j => (0 <? m j q)%Z && negb (Nat.eqb j q)) (seq 0 (length nbrs))). split; [apply Hk; lia|].
    apply filter_In. split; [apply in_seq; lia|]. rewrite (conn_sym _ _ _ Hm k q) by lia. rewrite Hq2. rewrite Nat.eqb_sym. exact Hq3.
Qed.

(** ** Source looping *)
Definition periodic {A} (d : A) (y z : list A) : Prop := forall i, i < length z -> nth i z d = nth (i mod length y) y d.
Lemma loop_ok {A} (d : A) y n : y <> [] -> forall fuel z, n - length z <= fuel -> length y <= length z ->
  periodic d y z -> (length z < n -> length z mod length y = 0) -> length z <= n ->
  exists z', loop_signal fuel n z = Ok z' /\ length z' = n /\ periodic d y z'.
Proof.
  intros Hy. assert (HL : length y <> 0) by (destruct y; [congruence | discriminate]).
  induction fuel as [|f IH]; intros z Hf Hz Hp Hm Hn; cbn [loop_signal].
  - destruct (Nat.ltb_spec (length z) n); [lia|]. exists z. split; [reflexivity|]. split; [lia | exact Hp].
  - destruct (Nat.ltb_spec (length z) n) as [Hlt|]; [|exists z; split; [reflexivity|]; split; [lia | exact Hp]].
    specialize (Hm Hlt). apply IH.
    + rewrite firstn_length, app_length. lia.
    + rewrite firstn_length, app_length. lia.
    + intros i Hi. rewrite firstn_length, app_length in Hi.
      assert (E : nth i (firstn n (z ++ z)) d = nth i (z ++ z) d).
      { rewrite <- (firstn_skipn n (z ++ z)) at 2. rewrite app_nth1 by (rewrite firstn_length, app_length; lia). reflexivity. }
      rewrite E. destruct (lt_dec i (length z)) as [Hi'|Hi'].
      * rewrite app_nth1 by exact Hi'. apply Hp. exact Hi'.
      * rewrite app_nth2 by lia. rewrite Hp by lia. f_equal.
        apply Nat.mod_divide in Hm; [|exact HL]. destruct Hm as [q Hq]. rewrite Hq.
        assert (Ei : i = (i - q * length y) + q * length y) by lia. rewrite Ei at 2. rewrite Nat.mod_add by exact HL. reflexivity.
    + intros Hlt'. rewrite firstn_length, app_length in *. rewrite Nat.min_r by lia. rewrite Nat.min_r in Hlt' by lia.
      rewrite Nat.add_mod, Hm by exact HL. cbn. apply Nat.mod_0_l. exact HL.
    + rewrite firstn_length. lia.
Qed.
Lemma source_ok {A} (d : A) y n fuel : y <> [] -> n <= fuel -> exists z, source_signal fuel n y = Ok z /\ length z = n /\ periodic d y z.
Proof.
  intros Hy Hf. unfold source_signal. assert (HL : length y <> 0) by (destruct y; [congruence | discriminate]).
  destruct (Nat.ltb_spec n (length y)).
  - exists (firstn n y). split; [reflexivity|]. split; [rewrite firstn_length; lia|]. intros i Hi. rewrite firstn_length in Hi.
    rewrite Nat.mod_small by lia. rewrite <- (firstn_skipn n y) at 2. rewrite app_nth1 by (rewrite firstn_length; lia). reflexivity.
  - apply (loop_ok d y n Hy fuel y); try lia.
    + intros i Hi. rewrite Nat.mod_small by exact Hi. reflexivity.
    + intros _. apply Nat.mod_same. exact HL.
Qed.
Lemma source_empty {A} n fuel : 0 < n -> source_signal fuel n (@nil A) = Err OutOfFuel.
Proof.
  intros Hn. unfold source_signal. cbn [List.length]. destruct (Nat.ltb_spec n 0); [lia|]. induction fuel as [|f IH]; cbn [loop_signal List.length];
  (destruct (Nat.ltb_spec 0 n); [|lia]); [reflexivity|]. cbn [app]. rewrite firstn_nil. exact IH.
Qed.

(** ** VAD per frame *)
Lemma vad_loop_spec flen shift prop vad : 0 < shift -> forall todo ii,
  let r := vad_loop flen shift prop vad todo ii in
  (forall i, i < length r -> nth i r false =
     if Nat.leb ((ii + i) * shift + flen) (length vad)
     then Qle_bool (inject_Z (Z.of_nat flen) * prop) (inject_Z (Z.of_nat (ones (firstn flen (skipn ((ii + i) * shift) vad)))))
     else false) /\
  length r <= todo /\
  (forall i, i < length r -> i + 1 < length r -> (ii + i) * shift + flen <= length vad) /\
  (length r < todo -> length vad < (ii + (length r - 1)) * shift + flen /\ 0 < length r).
Proof.
  intros Hs. induction todo as [|todo IH]; intros ii r; subst r; cbn [vad_loop]; [cbn; repeat split; intros; lia|].
  destruct (Nat.ltb_spec (length vad) (ii * shift + flen)) as [Hlt|Hge].
  - cbn [List.length]. split; [|split; [lia|split; [intros; lia|]]].
    + intros [|i] Hi; [|lia]. rewrite Nat.add_0_r. destruct (Nat.leb_spec (ii * shift + flen) (length vad)); [lia | reflexivity].
    + intros _. replace (ii + (1 - 1)) with ii by lia. lia.
  - specialize (IH (S ii)). cbv zeta in IH. destruct IH as (H1 & H2 & H3 & H4).
    set (r := vad_loop flen shift prop vad todo (S ii)) in *. cbn [List.length]. split; [|split; [lia|split]].
    + intros [|i] Hi; cbn [nth].
      * rewrite Nat.add_0_r. destruct (Nat.leb_spec (ii * shift + flen) (length vad)); [|lia]. unfold slice.
        replace (ii * shift + flen - ii * shift) with flen by lia.
        rewrite firstn_length, skipn_length, Nat.min_l by lia. reflexivity.
      * rewrite H1 by lia. replace (S ii + i) with (ii + S i) by lia. reflexivity.
    + intros [|i] Hi Hi'; [rewrite Nat.add_0_r; lia|]. replace (ii + S i) with (S ii + i) by lia. apply H3; lia.
    + intros Hlt. destruct (H4 ltac:(lia)) as [H5 H6]. split; [|lia]. replace (ii + (S (length r) - 1)) with (S ii + (length r - 1)) by lia. exact H5.
Qed.

(** number of complete frames *)
Definition complete_frames (flen shift n : nat) : nat := if Nat.leb flen n then (n - flen) / shift + 1 else 0.
Lemma vad_frames_spec flen shift prop vad : vad <> [] -> 0 < shift ->
  exists r, vad_per_frame flen shift prop vad = Ok r /\ length r = Nat.min (length vad / shift) (complete_frames flen shift (length vad) + 1) /\
  forall i, i < length r -> nth i r false =
     if Nat.leb (i * shift + flen) (length vad)
     then Qle_bool (inject_Z (Z.of_nat flen) * prop) (inject_Z (Z.of_nat (ones (firstn flen (skipn (i * shift) vad)))))
     else false.
Proof.
  intros Hv Hs. unfold vad_per_frame. destruct vad as [|v0 vad0] eqn:Ev; [congruence|]. rewrite <- Ev in *. clear Ev Hv.
  destruct (Nat.eqb_spec shift 0); [lia|]. eexists. split; [reflexivity|].
  destruct (vad_loop_spec flen shift prop vad Hs (length vad / shift) 0) as (H1 & H2 & H3 & H4). cbn [Nat.add] in *.
  set (r := vad_loop flen shift prop vad (length vad / shift) 0) in *. split; [|exact H1].
  clearbody r. remember (length vad / shift) as q eqn:Eq. clear Eq. unfold complete_frames. destruct (Nat.leb_spec flen (length vad)) as [Hle|Hgt].
  - (* complete frames: i complete iff i <= (n - flen) / shift *)
    assert (C : forall i, i * shift + flen <= length vad <-> i <= (length vad - flen) / shift).
    { intros i. split; intros H.
      - apply Nat.div_le_lower_bound; nia.
      - assert (H' := Nat.mul_div_le (length vad - flen) shift ltac:(lia)). nia. }
    remember ((length vad - flen) / shift) as c eqn:Ec. clear Ec.
    destruct (Nat.eq_dec (length r) q) as [E|E].
    + destruct (Nat.eq_dec (length r) 0) as [E0|E0]; [lia|]. destruct (Nat.eq_dec (length r) 1); [lia|].
      assert (H5 := H3 (length r - 2) ltac:(lia) ltac:(lia)). apply C in H5. lia.
    + destruct (H4 ltac:(lia)) as [H5 H6]. assert (~ (length r - 1 <= c)) by (intros H; apply C in H; lia).
      assert (length r - 1 <= c + 1); [|lia].
      destruct (Nat.eq_dec (length r) 1); [lia|]. assert (H7 := H3 (length r - 2) ltac:(lia) ltac:(lia)). apply C in H7. lia.
  - destruct (le_lt_dec (length r) 1) as [Hr|Hr].
    + destruct (Nat.eq_dec (length r) q); lia.
    + assert (H5 := H3 0 ltac:(lia) ltac:(lia)). lia.
Qed.
