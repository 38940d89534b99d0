(** Synchronous runs, continued. *)
From Verif Require Import Base BaseFacts Sched SchedSpec SchedFacts SchedFacts4 SchedFacts5 InstSpec InstFacts Buffers BufSpec BufFacts SyncFacts.
Open Scope Z_scope.

Lemma repeat_of_nth {A} (l : list A) n x : length l = n -> (forall i y, nth_error l i = Some y -> y = x) -> l = repeat x n.
Proof.
  revert n; induction l as [|a l IH]; intros n Hl H; simpl in Hl; subst n; [reflexivity|]. simpl.
  rewrite (H 0%nat a eq_refl). f_equal. apply IH; [reflexivity|]. intros i y Hi. apply (H (S i) y Hi).
Qed.

Lemma repeat_snoc {A} (x : A) n : repeat x n ++ [x] = repeat x (S n).
Proof. induction n as [|n IH]; [reflexivity|]. simpl. rewrite IH. reflexivity. Qed.

Definition rows_expected (d : nat) (a N : Z) (u : nat) : list (list Z) :=
  match u with O => [] | S m => repeat (a - N) d :: repeat (repeat 0 d) m end.

Lemma rows_expected_S d a N u :
  rows_expected d a N (S u) = rows_expected d a N u ++ [repeat (if Nat.eqb u 0 then a - N else 0) d].
Proof. destruct u as [|m]; [reflexivity|]. simpl Nat.eqb. cbn iota. unfold rows_expected. rewrite <- repeat_snoc. reflexivity. Qed.

Section S2.
  Variable A : Type.
  Variable zero : A.
  Variable p : sparams.
  Variable nodes : list snode.
  Variable compress : nat -> Z -> Z -> list A.
  Hypothesis Hcomp : forall k t n, 0 <= n -> Z.of_nat (length (compress k t n)) = n.
  Hypothesis Hnet : symmetric_net (map nbrs nodes).
  Hypothesis Hp : good_params p.
  Hypothesis Hwhole : p_whole p = true -> p_L p = p_Ns p.
  Hypothesis HNsN : p_Ns p <= p_N p.
  Let nb := map nbrs nodes.
  Let l0 := map (fun _ : snode => 0) nodes.
  Let H_ := hist A p nodes compress l0.

  Variable evs : list tev.
  Variable a : Z.
  Hypothesis Hvalid : forall x, In x evs -> valid_ev nodes x.
  Hypothesis Hsent : forall k idx q pre t post, link nb k idx q -> evs = pre ++ (t, (k, Up)) :: post ->
    Z.of_nat (length (sent q (H_ pre))) = a + Z.of_nat (reads k (H_ pre)) * p_Ns p.

  Lemma sizes k idx q pre t post : link nb k idx q -> evs = pre ++ (t, (k, Up)) :: post ->
    Z.of_nat (length (received q k (H_ pre))) = if Nat.eqb (reads k (H_ pre)) 0 then a else p_Ns p.
  Proof.
    intros HL E. apply (sizes_at_updates A p nodes compress Hcomp Hwhole evs a k q Hvalid) with (t := t) (post := post); [|exact E].
    intros pre' t' post' E'. apply (Hsent k idx q pre' t' post' HL E').
  Qed.

  Lemma flag_rows_app k l1 l2 : flag_rows k (l1 ++ l2) = flag_rows k l1 ++ flag_rows k l2.
  Proof. unfold flag_rows. rewrite filter_app, map_app. reflexivity. Qed.

  Lemma prefix_runs pre : forall post, evs = pre ++ post ->
    exists st, exec zero nb (p_N p) (p_Ns p) (H_ pre) (start_state A nb) = Ok st /\
      forall k lk, nth_error nb k = Some lk ->
        flag_rows k (b_log st) = rows_expected (length lk) a (p_N p) (reads k (H_ pre)).
  Proof.
    destruct Hp as [HN [HNs HL]].
    induction pre as [|x pre IH] using rev_ind; intros post E.
    - eexists. split; [reflexivity|]. intros k lk Hk. reflexivity.
    - rewrite <- app_assoc in E. destruct (IH _ E) as [st [Est Hrows]].
      assert (I := exec_inv A zero nb (p_N p) (p_Ns p) _ _ HN Hnet Est).
      assert (Hv : valid_ev nodes x) by (apply Hvalid; rewrite E; apply in_or_app; right; left; reflexivity).
      destruct x as [t [k ty]]. destruct Hv as [Hk Hty]. simpl in Hk, Hty.
      assert (Hk' : (k < length nb)%nat) by (unfold nb; rewrite map_length; exact Hk).
      unfold H_ in *. rewrite hist_app. cbn [hist]. unfold exec in Est |- *. rewrite foldM_app, Est. cbn [bind].
      destruct Hty as [->| ->]; cbn [foldM exec_op].
      + destruct (nth_error nb k) as [lk|] eqn:Ek; [|apply nth_error_None in Ek; lia].
        destruct (read_cols A zero nb (p_N p) (p_Ns p) _ st k lk HN Hnet I Ek) as [st' Est'].
        { destruct (Nat.eq_dec (reads k (hist A p nodes compress l0 pre)) 0) as [E0|E0]; [left; exact E0|]. right. intros q Hq.
          apply In_nth_error in Hq. destruct Hq as [idx Hq].
          assert (HLk : link nb k idx q) by (exists lk; auto).
          pose proof (sizes k idx q pre t post HLk E) as HS. unfold H_ in HS. rewrite HS.
          destruct (Nat.eqb_spec (reads k (hist A p nodes compress l0 pre)) 0); lia. }
        rewrite Est'. cbn [bind]. exists st'. split; [reflexivity|].
        destruct (read_step A zero nb (p_N p) (p_Ns p) _ st k st' HN Hnet I Est') as [I' [lk' [zk [row [Elk [Ezk [Elog Hcols]]]]]]].
        assert (lk' = lk) by congruence. subst lk'.
        intros k' lk' Hk2. rewrite Elog, flag_rows_app, (Hrows k' lk' Hk2), reads_snoc.
        unfold flag_rows. cbn [filter fst]. destruct (Nat.eqb_spec k k') as [<-|Hne].
        * assert (lk' = lk) by congruence. subst lk'. cbn [map snd]. rewrite Nat.add_1_r, rows_expected_S. f_equal. f_equal.
          apply repeat_of_nth.
          { apply (inv_loglen _ _ _ _ _ _ I' k lk (k, row) Ek); [rewrite Elog; apply in_or_app; right; left; reflexivity | reflexivity]. }
          intros idx y Hy.
          assert (Hidx : (idx < length lk)%nat).
          { rewrite <- (inv_loglen _ _ _ _ _ _ I' k lk (k, row) Ek); [apply nth_error_Some; simpl; congruence | rewrite Elog; apply in_or_app; right; left; reflexivity | reflexivity]. }
          destruct (nth_error lk idx) as [q|] eqn:Eq; [|apply nth_error_None in Eq; lia].
          assert (HLk : link nb k idx q) by (exists lk; auto).
          destruct (Hcols idx q HLk) as [frame [flag [_ [Hf [_ [Hflag _]]]]]].
          rewrite Hf in Hy. injection Hy as <-. rewrite Hflag.
          pose proof (sizes k idx q pre t post HLk E) as HS. unfold H_ in HS. rewrite HS.
          destruct (Nat.eqb (reads k (hist A p nodes compress l0 pre)) 0); lia.
        * cbn [map]. rewrite app_nil_r, Nat.add_0_r. reflexivity.
      + destruct (fill_buffers_spec A nb k (chunk_of A p nodes compress (lasts_of p l0 pre) t k) (b_buf st) Hnet (inv_shape _ _ _ _ _ _ I) Hk') as [bufs [Eb _]].
        rewrite Eb. cbn [bind]. eexists. split; [reflexivity|]. cbn [b_log].
        intros k' lk' Hk2. rewrite (Hrows k' lk' Hk2), reads_snoc, Nat.add_0_r. reflexivity.
  Qed.

  Lemma sync_conclusion :
    (forall pre t k post, evs = pre ++ (t, (k, Up)) :: post ->
       exists st, run_events zero p nodes compress pre (init_state A nodes) = Ok st /\
         forall idx q b, link nb k idx q -> buffer_at (b_buf st) k idx b ->
           Z.of_nat (length b) = if Nat.eqb (event_count k Up pre) 0 then a else p_Ns p) /\
    exists st, run_events zero p nodes compress evs (init_state A nodes) = Ok st /\
      forall k nd, nth_error nodes k = Some nd ->
        flag_rows k (b_log st) = rows_expected (length (nbrs nd)) a (p_N p) (event_count k Up evs).
  Proof.
    assert (Hl0 : length l0 = length nodes) by apply map_length.
    split.
    - intros pre t k post E. destruct (prefix_runs pre _ E) as [st [Est _]].
      assert (Hvp : forall x, In x pre -> valid_ev nodes x) by (intros x Hx; apply Hvalid; rewrite E; apply in_or_app; left; exact Hx).
      exists (set_last A st (lasts_of p l0 pre)). split.
      + rewrite init_is_start. rewrite (run_as_exec A zero p nodes compress Hcomp Hwhole pre _ _ Hvp Hl0). fold nb.
        fold l0. fold H_. rewrite Est. reflexivity.
      + intros idx q b HL Hb. cbn [b_buf set_last] in Hb.
        destruct Hp as [HN _]. assert (I := exec_inv A zero nb (p_N p) (p_Ns p) _ _ HN Hnet Est).
        rewrite (buffer_at_fun _ _ _ _ _ _ Hb (inv_buf _ _ _ _ _ _ I _ _ _ HL)).
        rewrite (sizes k idx q pre t post HL E).
        unfold H_. rewrite reads_hist by exact Hvp. reflexivity.
    - destruct (prefix_runs evs [] ltac:(rewrite app_nil_r; reflexivity)) as [st [Est Hrows]].
      exists (set_last A st (lasts_of p l0 evs)). split.
      + rewrite init_is_start. rewrite (run_as_exec A zero p nodes compress Hcomp Hwhole evs _ _ Hvalid Hl0). fold nb.
        fold l0. fold H_. rewrite Est. reflexivity.
      + intros k nd Hnd. cbn [b_log set_last]. rewrite (Hrows k (nbrs nd)).
        * unfold H_. rewrite reads_hist by exact Hvalid. reflexivity.
        * unfold nb. rewrite nth_error_map, Hnd. reflexivity.
  Qed.
End S2.

(** ** The schedule of synchronous nodes *)
Definition grid (per first step stop t : Z) : Prop :=
  exists i, t = (first + Z.of_nat i * step) * per /\ first + Z.of_nat i * step < stop.

Lemma exact_clock_In per Nt t : In t (exact_clock per Nt) <-> exists i, (i < Nt)%nat /\ t = Z.of_nat i * per.
Proof.
  unfold exact_clock. rewrite in_map_iff. split.
  - intros [i [<- Hi]]. apply in_seq in Hi. exists i. split; [lia | reflexivity].
  - intros [i [Hi ->]]. exists i. split; [reflexivity | apply in_seq; lia].
Qed.

Lemma exact_clock_sorted per Nt : 0 < per -> StronglySorted Z.lt (exact_clock per Nt).
Proof.
  intros Hper. unfold exact_clock. apply map_sorted with (R' := lt); [intros; nia|].
  generalize 0%nat. induction Nt as [|m IH]; intros s; simpl; constructor; [apply IH|].
  apply Forall_forall. intros x Hx. apply in_seq in Hx. lia.
Qed.

Lemma exact_clock_largest per Nt : 0 < per -> (0 < Nt)%nat -> largest (exact_clock per Nt) (Z.of_nat (Nt - 1) * per).
Proof.
  intros Hper Ht. split.
  - apply exact_clock_In. exists (Nt - 1)%nat. split; [lia | reflexivity].
  - intros u Hu. apply exact_clock_In in Hu. destruct Hu as [i [Hi ->]]. nia.
Qed.

Lemma nominal_grid per Nt nd first sep t :
  0 < per -> (0 < Nt)%nat -> 0 < sep -> 0 <= first -> period nd = per -> stamps nd = exact_clock per Nt ->
  (exists s, nominal_event nd first sep s /\ next_sample (stamps nd) (s * period nd) t) <->
  grid per first sep (Z.of_nat (Nt - 1) / sep * sep) t.
Proof.
  intros Hper Ht Hsep Hf Ep Es. rewrite Es, Ep.
  assert (Hdiv : forall i, first + Z.of_nat i * sep < Z.of_nat (Nt - 1) / sep * sep -> exists m, (m < Nt)%nat /\ first + Z.of_nat i * sep = Z.of_nat m).
  { intros i Hi. pose proof (Z.mul_div_le (Z.of_nat (Nt - 1)) sep Hsep). exists (Z.to_nat (first + Z.of_nat i * sep)). lia. }
  split.
  - intros [s [[i [x [Esx [Hlg Hlt]]]] [Hin [Hle Hmin]]]]. rewrite Es in Hlg.
    assert (x = Z.of_nat (Nt - 1) * per) by (eapply largest_unique; [exact Hlg | apply exact_clock_largest; assumption]). subst x.
    assert (Hlt' : s < Z.of_nat (Nt - 1) / sep * sep).
    { rewrite Ep in Hlt. rewrite (Z.mul_comm per sep) in Hlt. rewrite Z.div_mul_cancel_r in Hlt by lia. exact Hlt. }
    exists i. rewrite <- Esx. split; [|exact Hlt'].
    destruct (Hdiv i ltac:(lia)) as [m [Hm Em]]. rewrite <- Esx in Em.
    assert (Hs : In (s * per) (exact_clock per Nt)) by (apply exact_clock_In; exists m; split; [exact Hm | rewrite Em; reflexivity]).
    specialize (Hmin _ Hs ltac:(lia)). lia.
  - intros [i [-> Hlt]]. exists (first + Z.of_nat i * sep). destruct (Hdiv i Hlt) as [m [Hm Em]]. split.
    + exists i, (Z.of_nat (Nt - 1) * per). split; [reflexivity|]. rewrite Es, Ep. split; [apply exact_clock_largest; assumption|].
      rewrite (Z.mul_comm per sep). rewrite Z.div_mul_cancel_r by lia. exact Hlt.
    + split; [apply exact_clock_In; exists m; split; [exact Hm | rewrite Em; reflexivity]|]. split; [lia | intros; assumption].
Qed.
