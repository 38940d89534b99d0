(** Runs as histories of sends and reads. *)
From Verif Require Import Base BaseFacts Sched SchedSpec Buffers BufSpec BufFacts SyncFacts Chunk ChunkSpec ChunkFacts Cx Wola WolaFacts Dist Online OnlineSpec OutSpec OutFacts OutFacts2 OutFacts3 DistSpec DistFacts2 LatestSpec LatestFacts.
From Coq Require Import Reals.
Open Scope Z_scope.

Definition blen (c : ocfg) : Z := if p_whole (o_p c) then p_Ns (o_p c) else p_L (o_p c).

Lemma py_from_all {A} (z : list A) n : Z.of_nat (length z) = n -> 0 < n -> py_from (- n) z = z.
Proof.
  intros E H. unfold py_from, py_bound. destruct (- n <? 0) eqn:X; [|lia]. replace (Z.to_nat _) with 0%nat by lia. reflexivity.
Qed.

Lemma few_length len wir cols L z : compress_few_samples len wir cols L = Ok z -> length z = L.
Proof.
  unfold compress_few_samples. intros H. apply bind_ok in H. destruct H as (x & _ & H). 
  match type of H with Ok ?a = Ok ?b => assert (E : a = b) by congruence end. rewrite <- E, map_length, seq_length. reflexivity.
Qed.
Lemma whole_length N Ns h f w yq prev z : compress_whole_chunk N Ns h f w yq prev = Ok z -> length (snd z) = N.
Proof.
  unfold compress_whole_chunk. intros H. apply bind_ok in H. destruct H as ((a & b) & _ & H). destruct (all_zero prev).
  - match type of H with Ok ?a = Ok ?b => assert (E : a = b) by congruence end. rewrite <- E. cbn [snd]. rewrite map_length, seq_length. reflexivity.
  - apply bind_ok in H. destruct H as (p & _ & H). apply bind_ok in H. destruct H as (nv & _ & H).
    match type of H with Ok ?a = Ok ?b => assert (E : a = b) by congruence end. rewrite <- E. cbn [snd]. rewrite map_length, seq_length. reflexivity.
Qed.

Section Hist.
  Variables (c : ocfg) (y : list (list (list R))).
  Let p := o_p c.
  Let nb := map nbrs (o_nodes c).
  Hypothesis HNs : 0 <= p_Ns p.

  (** One event as an operation. *)
  Lemma event_op te s s' : (length (o_nodes c) <= length (os_zl s))%nat -> online_event c y s te = Ok s' ->
    exists o l, (forall l0, exec_op 0%R nb (p_N p) (p_Ns p) (set_last R (os_b s) l0) o = Ok (set_last R (os_b s') l0)) /\
      b_last (os_b s') = l /\
      (forall q, sent q [o] = if is_bc q te then block c q s' else []) /\
      (forall k, reads k [o] = if is_update k te then 1%nat else 0%nat) /\
      (forall q, is_bc q te = true -> p_whole p = true -> Z.of_nat (length (nth q (os_zl s') [])) = Z.of_nat (Z.to_nat (p_N p))) /\
      (forall q, is_bc q te = true -> p_whole p = false -> p_efficient p = false -> Z.of_nat (length (nth q (os_zl s') [])) = Z.of_nat (Z.to_nat (p_L p))).
  Proof.
    destruct te as [t [k ty]]. intros HZ H. unfold online_event in H. cbn [fst snd] in H. destruct ty; try discriminate H.
    - unfold online_broadcast in H.
      apply bind_ok in H. destruct H as (nd & Hnd & H). apply bind_ok in H. destruct H as (yk & Hyk & H). apply bind_ok in H. destruct H as (fr & Hfr & H).
      cbv zeta in H. destruct (existsb _ _); [discriminate|]. apply bind_ok in H. destruct H as (ik & Hik & H). fold p in H.
      assert (Hk : (k < length (os_zl s))%nat) by (destruct (get_nth _ _ _ (mkNode 1 [] []) Hnd) as [_ L]; lia).
      assert (IS : forall q, is_bc q (t, (k, Bc)) = Nat.eqb k q) by reflexivity.
      destruct (p_whole p) eqn:Hw.
      + apply bind_ok in H. destruct H as (prev & _ & H). apply bind_ok in H. destruct H as (z & Hz & H). apply bind_ok in H. destruct H as (b & Hb & H).
        injection H as <-. cbn [os_b os_zl]. unfold broadcast in Hb. fold p in Hb. rewrite Hnd, Hw in Hb. cbn [bind] in Hb.
        apply bind_ok in Hb. destruct Hb as (bufs & Hbufs & Hb). injection Hb as <-. cbn [b_last].
        exists (Send k (chunk_to_send (snd z) (p_Ns p))), (b_last (os_b s)).
        split. { intros l0. cbn [exec_op set_last b_buf b_z b_i b_last b_log]. unfold nb. rewrite Hbufs. reflexivity. }
        split; [reflexivity|]. split.
        { intros q. rewrite IS. cbn. rewrite app_nil_r. destruct (Nat.eqb_spec k q) as [->|_]; [|reflexivity].
          unfold block. cbn [os_zl]. fold p. rewrite Hw, nth_upd_eq by exact Hk. unfold chunk_to_send.
          destruct (p_Ns p <? 0) eqn:E1; [lia|]. destruct (0 <? p_Ns p) eqn:E2.
          - unfold py_upto, py_bound. rewrite E1. destruct (Nat.le_gt_cases (Z.to_nat (p_Ns p)) (length (snd z))).
            + f_equal. lia.
            + rewrite !firstn_all2 by lia. reflexivity.
          - replace (Z.to_nat (p_Ns p)) with 0%nat by lia. reflexivity. }
        split; [intros; reflexivity|]. split; [|discriminate].
        intros q. rewrite IS. intros Eq _. apply Nat.eqb_eq in Eq. subst q. rewrite nth_upd_eq by exact Hk. rewrite (whole_length _ _ _ _ _ _ _ _ Hz). reflexivity.
      + apply bind_ok in H. destruct H as (lup & _ & H). apply bind_ok in H. destruct H as (wir & _ & H). apply bind_ok in H. destruct H as (wir' & _ & H).
        apply bind_ok in H. destruct H as (lst & Hlst & H). apply bind_ok in H. destruct H as (z & Hz & H). apply bind_ok in H. destruct H as (b & Hb & H).
        injection H as <-. cbn [os_b os_zl]. unfold broadcast in Hb. fold p in Hb. rewrite Hnd, Hw in Hb. cbn [bind] in Hb. rewrite Hlst in Hb. cbn [bind] in Hb.
        set (cur := if p_efficient p then efficient_size (p_L p) (stamps nd) lst t else p_L p) in *.
        apply bind_ok in Hb. destruct Hb as (bufs & Hbufs & Hb). injection Hb as <-. cbn [b_last]. apply few_length in Hz.
        exists (Send k (chunk_to_send z (- cur))), (if p_efficient p then upd k t (b_last (os_b s)) else b_last (os_b s)).
        split. { intros l0. cbn [exec_op set_last b_buf b_z b_i b_last b_log]. unfold nb. rewrite Hbufs. reflexivity. }
        split; [reflexivity|]. split.
        { intros q. rewrite IS. cbn. rewrite app_nil_r. destruct (Nat.eqb_spec k q) as [->|_]; [|reflexivity].
          unfold block. cbn [os_zl]. fold p. rewrite Hw, nth_upd_eq by exact Hk. unfold chunk_to_send.
          destruct (- cur <? 0) eqn:E1; [apply py_from_all; lia|].
          assert (z = []) by (apply length_zero_iff_nil; lia). subst z. destruct (0 <? - cur); [|reflexivity].
          unfold py_upto. apply firstn_nil. }
        split; [intros; reflexivity|]. split; [discriminate|].
        intros q. rewrite IS. intros Eq _ Ef. apply Nat.eqb_eq in Eq. subst q. rewrite nth_upd_eq by exact Hk. rewrite Hz. unfold cur. rewrite Ef. reflexivity.
    - unfold online_update in H.
      apply bind_ok in H. destruct H as (nd & Hnd & H). apply bind_ok in H. destruct H as (yk & Hyk & H).
      apply bind_ok in H. destruct H as (ik & Hik & H). apply bind_ok in H. destruct H as (b' & Hb' & H).
      apply bind_ok in H. destruct H as (fr & Hfr & H). apply bind_ok in H. destruct H as (be & Hbe & H).
      apply bind_ok in H. destruct H as (zk & Hzk & H). cbv zeta in H. destruct (existsb _ _); [discriminate|].
      apply bind_ok in H. destruct H as (psf & Hpsf & H). destruct (_ && _)%bool; [discriminate|].
      apply bind_ok in H. destruct H as (xs & Hxs & H). apply bind_ok in H. destruct H as (psf2 & Hpsf2 & H).
      apply bind_ok in H. destruct H as (d & Hd & H). apply bind_ok in H. destruct H as (d' & Hd' & H).
      apply bind_ok in H. destruct H as (dl & Hdl & H). apply bind_ok in H. destruct H as (dl' & Hdl' & H).
      injection H as <-. cbn [os_b os_zl]. exists (Read k), (b_last b').
      split.
      { intros l0. cbn [exec_op]. fold p nb in Hb'. unfold read_buffers in *. cbn [set_last b_buf b_z b_i b_last b_log].
        apply bind_ok in Hb'. destruct Hb' as (v1 & -> & Hb'). apply bind_ok in Hb'. destruct Hb' as (v2 & -> & Hb').
        apply bind_ok in Hb'. destruct Hb' as (v3 & -> & Hb'). apply bind_ok in Hb'. destruct Hb' as (v4 & -> & Hb'). cbn [bind].
        apply bind_ok in Hb'. destruct Hb' as (v5 & -> & Hb'). cbn [bind]. injection Hb' as <-. reflexivity. }
      split; [reflexivity|]. split; [reflexivity|]. split; [|split; intros q B; discriminate B].
      intros k'. unfold is_update. cbn. destruct (Nat.eqb k k'); reflexivity.
  Qed.
End Hist.
