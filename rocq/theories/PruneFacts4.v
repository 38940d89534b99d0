(** Runs over pruned networks. *)
From Verif Require Import Base BaseFacts Sched SchedSpec InstSpec Buffers BufFacts Tree TreeSpec Online Full InNet TiRun TiSched TiSchedSpec Prune PruneSpec PruneFacts3.
From Coq Require Import Reals Lra.
Local Open Scope nat_scope.

Lemma network_trees n A pos order : connected n A -> Permutation order (seq 0 n) -> 0 < n -> places n A pos ->
  exists prs, mapM (prune n A (Some pos) order) (seq 0 n) = Ok prs /\
    let pr r := nth r prs (mkPr [] [] (Tree.mkO [] []) []) in
    trees_over n (fun r => pr_nbrs (pr r)) (fun r => (o_up (pr_orient (pr r)), r)) (fun r => pr_order (pr r)).
Proof.
  intros HC HP Hn HPl. destruct (mapM_total (prune n A (Some pos) order) (seq 0 n)) as (prs & E).
  { intros r Hr. apply in_seq in Hr. destruct (prune_ok n A pos order HC HP Hn r HPl) as (pr & P & _); [lia|]. eauto. }
  exists prs. split; [exact E|]. intros pr r Hr. destruct (prune_ok n A pos order HC HP Hn r HPl Hr) as (p & P & T & O & _).
  assert (Er : pr r = p).
  { assert (S0 : nth_error (seq 0 n) r = Some r) by (rewrite (nth_error_nth' _ 0) by (now rewrite seq_length); now rewrite seq_nth).
    destruct (mapM_nth _ _ _ r r E S0) as (z & Z1 & Z2). unfold pr. rewrite (nth_error_nth prs r _ Z2) || rewrite (nth_error_nth prs r _ Z1). congruence. }
  rewrite Er. split; [exact T|]. exists (pr_orient p). split; [exact O|reflexivity].
Qed.

Lemma before_lt a b : (it_w a < it_w b)%R -> before a b = true.
Proof. intros H. unfold before. destruct (Rlt_dec _ _); [reflexivity|contradiction]. Qed.
Lemma before_gt a b : (it_w b < it_w a)%R -> before a b = false.
Proof. intros H. unfold before. destruct (Rlt_dec _ _); [lra|]. destruct (Rlt_dec _ _); [reflexivity|contradiction]. Qed.
Lemma before_eq a b : it_w a = it_w b -> before a b = (it_c a <? it_c b).
Proof. intros H. unfold before. destruct (Rlt_dec _ _); [lra|]. destruct (Rlt_dec _ _); [lra|reflexivity]. Qed.
Lemma loop_step n A wt f nodes visited it fr c es : nodes <> [] ->
  prim_loop n A wt (S f) nodes visited (it :: fr) c es =
  if memN (it_v it) visited || negb (memN (it_v it) nodes) then prim_loop n A wt f nodes visited fr c es
  else let r := push_all n A wt (it_v it) (it_v it :: visited) fr c in
       prim_loop n A wt f (remove Nat.eq_dec (it_v it) nodes) (it_v it :: visited) (fst r) (snd r) ((it_u it, it_v it) :: es).
Proof. intros H. destruct nodes; [congruence|reflexivity]. Qed.

Section Forced.
  Variables (wt : nat -> nat -> R) (d : R).
  Hypotheses (H00 : wt 0 0 = 0%R) (H01 : wt 0 1 = 0%R) (H02 : wt 0 2 = d) (H12 : wt 1 2 = d) (H20 : wt 2 0 = d) (H10 : wt 1 0 = 0%R) (H21 : wt 2 1 = d) (Hd : (0 < d)%R).
  Lemma forced_tree : spanning_edges 3 (fun _ _ => true) wt [0; 1; 2] = Ok [(0, 2); (0, 1)].
  Proof.
    set (a0 := mkIt 0 0 0 0). set (a1 := mkIt 0 1 0 1). set (a2 := mkIt d 2 0 2). set (a3 := mkIt d 3 1 2).
    assert (B10 : before a1 a0 = false) by (apply before_eq; reflexivity).
    assert (B20 : before a2 a0 = false) by (apply before_gt; exact Hd). assert (B21 : before a2 a1 = false) by (apply before_gt; exact Hd).
    assert (B32 : before a3 a2 = false) by (apply before_eq; reflexivity).
    assert (P0 : push_all 3 (fun _ _ => true) wt 0 [] [] 0 = ([a0; a1; a2], 3)).
    { unfold push_all, adj. cbn [seq filter orb fold_left memN existsb fst snd]. rewrite H00, H01, H02. fold a0 a1 a2. cbn [push]. rewrite B10. cbn [push]. rewrite B20. cbn [push]. rewrite B21. reflexivity. }
    assert (P1 : push_all 3 (fun _ _ => true) wt 1 [1; 0] [a2] 3 = ([a2; a3], 4)).
    { unfold push_all, adj. cbn [seq filter orb fold_left memN existsb fst snd Nat.eqb]. rewrite H12. fold a3. cbn [push]. rewrite B32. reflexivity. }
    unfold spanning_edges. cbn [length prim_outer]. rewrite P0. cbn [fst snd]. assert (F : exists f, S (4 * 3) = S (S (S (S f)))) by (exists 9; reflexivity). destruct F as (f & ->).
    rewrite loop_step by discriminate. cbn [it_v a0 memN existsb Nat.eqb orb negb]. rewrite loop_step by discriminate.
    cbn [it_v it_u a1 memN existsb Nat.eqb orb negb]. cbv zeta. rewrite P1. cbn [fst snd]. change (remove Nat.eq_dec 1 [1; 2]) with [2].
    rewrite loop_step by discriminate. cbn [it_v it_u a2 memN existsb Nat.eqb orb negb]. cbv zeta. change (remove Nat.eq_dec 2 [2]) with (@nil nat). reflexivity.
  Qed.
  Lemma forced_nbrs : pruned_neighbours 3 wt [(0, 2); (0, 1)] = [[2]; []; [0]].
  Proof.
    unfold pruned_neighbours. cbn [seq map filter is_link existsb fst snd Nat.eqb andb orb]. rewrite H02, H20, H01, H10.
    destruct (Rlt_dec 0 d); [|contradiction]. destruct (Rlt_dec 0 0); [lra|]. reflexivity.
  Qed.
End Forced.
