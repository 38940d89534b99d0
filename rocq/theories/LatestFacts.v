(** Frames hold the latest samples sent. *)
From Verif Require Import Base BaseFacts Sched SchedSpec Buffers BufSpec BufFacts.
Open Scope Z_scope.

Section Latest.
  Variable A : Type.
  Variable zero : A.
  Variables (nb : list (list nat)) (N Ns : Z).
  Hypothesis HN : 0 < N.
  Hypothesis Hnet : symmetric_net nb.

  Lemma read_others k k' st st' : read_buffers zero nb N Ns k st = Ok st' -> k' <> k -> nth_error (b_z st') k' = nth_error (b_z st) k'.
  Proof.
    unfold read_buffers. intros H Hne.
    repeat (apply bind_ok in H; destruct H as (? & ? & H)). injection H as <-. cbn [b_z]. apply upd_nth_other. congruence.
  Qed.

  Lemma latest_inv h : forall st, exec zero nb N Ns h (start_state A nb) = Ok st ->
    forall k idx q, link nb k idx q -> reads k h <> 0%nat ->
    exists zk frame X, nth_error (b_z st) k = Some zk /\ nth_error zk idx = Some frame /\ Z.of_nat (length frame) = N /\
      repeat zero (Z.to_nat N) ++ sent q h = X ++ frame ++ received q k h.
  Proof.
    induction h as [|o h IH] using rev_ind; intros st E k idx q HL Hr; [now contradiction Hr|].
    unfold exec in E. rewrite foldM_app in E. apply bind_ok in E. destruct E as (s & Es & E). cbn [foldM] in E.
    apply bind_ok in E. destruct E as (s' & E & X). injection X as ->.
    assert (I := exec_inv A zero nb N Ns h s HN Hnet Es).
    rewrite reads_snoc in Hr. rewrite received_snoc, sent_snoc.
    destruct o as [a c|r].
    - rewrite Nat.add_0_r in Hr. destruct (IH s Es k idx q HL Hr) as (zk & frame & X & Z1 & Z2 & Z3 & Z4).
      cbn [exec_op] in E. apply bind_ok in E. destruct E as (bufs & _ & E). injection E as <-. cbn [b_z].
      exists zk, frame, X. split; [exact Z1|]. split; [exact Z2|]. split; [exact Z3|].
      rewrite app_assoc, Z4, <- !app_assoc. destruct (Nat.eqb a q); [reflexivity|now rewrite app_nil_r].
    - cbn [exec_op] in E. rewrite app_nil_r. destruct (Nat.eqb_spec r k) as [->|Hne].
      + destruct (read_step A zero nb N Ns h s k st HN Hnet I E) as [_ (lk & zk & row & Elk & Ezk & _ & Hcols)].
        destruct (Hcols idx q HL) as (frame & flag & F1 & _ & F3 & _ & F5 & F6). cbv zeta in F5, F6.
        destruct (Z_le_gt_dec (Z.of_nat (length (received q k h))) N) as [Hle|Hgt].
        * destruct (F5 Hle) as (old & Ef & O1 & O2). destruct (Nat.eq_dec (reads k h) 0) as [R0|R0].
          -- exists zk, frame, (repeat zero (length (received q k h))). repeat (split; [assumption|]). rewrite app_nil_r.
             rewrite Ef, (O1 R0), (inv_recv0 _ _ _ _ _ _ I k q R0).
             rewrite !app_assoc, <- repeat_app. do 2 f_equal. rewrite <- (inv_recv0 _ _ _ _ _ _ I k q R0). lia.
          -- destruct (IH s Es k idx q HL R0) as (zk0 & prev & X & Z1 & Z2 & Z3 & Z4).
             destruct old as [|x old].
             ++ cbn in Ef. exists zk, frame, (X ++ prev). repeat (split; [assumption|]). rewrite app_nil_r. rewrite Ef, <- app_assoc. exact Z4.
             ++ destruct (O2 R0 ltac:(discriminate)) as (zk1 & prev1 & Y1 & Y2 & Y3).
                assert (zk1 = zk0) by congruence. subst zk1. assert (prev1 = prev) by congruence. subst prev1.
                exists zk, frame, (X ++ firstn (length (received q k h)) prev). repeat (split; [assumption|]). rewrite app_nil_r.
                rewrite Ef, Y3, Z4, <- !app_assoc. f_equal. rewrite app_assoc, firstn_skipn. reflexivity.
        * destruct (F6 ltac:(lia)) as (R0 & Ef). exists zk, frame, (repeat zero (Z.to_nat N) ++ firstn (length (received q k h) - Z.to_nat N) (received q k h)).
          repeat (split; [assumption|]). rewrite app_nil_r. rewrite Ef, <- app_assoc, firstn_skipn, (inv_recv0 _ _ _ _ _ _ I k q R0). reflexivity.
      + rewrite Nat.add_0_r in Hr. destruct (IH s Es k idx q HL Hr) as (zk & frame & X & Z1 & Z2 & Z3 & Z4).
        exists zk, frame, X. split; [|auto]. rewrite (read_others r k s st E) by congruence. exact Z1.
  Qed.
End Latest.
