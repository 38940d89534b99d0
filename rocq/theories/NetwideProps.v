(** Network-wide filters (C53). *)
From Verif Require Import Base BaseFacts CentrSpec Cx CxFacts Netwide NetwideSpec NetwideFacts.
From Coq Require Import Reals Lra.
Local Open Scope R_scope.

(** Filters of the shapes of the algorithm are accepted; one filter per node and
    iteration, with one coefficient for each sensor of the network. *)
Theorem C53_succeeds : forall ti filters ext ys F I,
  net_shapes ti filters ext ys F I -> (0 < I)%nat ->
  exists nws, netwide ti filters ext (map (@length cx) ys) = Ok nws /\ length nws = length ys /\
    forall k, (k < length ys)%nat -> length (nth k nws []) = I.
Proof.
  intros ti filters ext ys F I HS HI. unfold netwide. destruct HS as (H1 & H2 & H3). rewrite H1.
  destruct (mapM_total (netwide_node ti filters ext (map (@length cx) ys)) (seq 0 (length ys))) as (nws & E).
  { intros k Hk%in_seq. destruct (node_filters ti filters ext ys F I (Logic.conj H1 (Logic.conj H2 H3)) HI k ltac:(lia)) as (nw & En & _). now exists nw. }
  exists nws. split; [exact E|]. split; [apply mapM_length in E; now rewrite seq_length in E|].
  intros k Hk. destruct (node_filters ti filters ext ys F I (Logic.conj H1 (Logic.conj H2 H3)) HI k Hk) as (nw & En & Hl & _).
  assert (nth k nws [] = nw) as ->; [|exact Hl].
  assert (Ek : nth_error (seq 0 (length ys)) k = Some k). { rewrite (nth_error_nth' _ 0%nat) by (now rewrite seq_length). now rewrite seq_nth. }
  destruct (mapM_nth _ _ _ _ _ E Ek) as (nw' & B & A). change (netwide_node ti filters ext (counts ys) k = Ok nw') in A. rewrite En in A. injection A as ->. now apply nth_error_nth.
Qed.

Lemma netwide_nth ti filters ext ys F I nws k : net_shapes ti filters ext ys F I -> netwide ti filters ext (map (@length cx) ys) = Ok nws -> (k < length ys)%nat ->
  netwide_node ti filters ext (map (@length cx) ys) k = Ok (nth k nws []).
Proof.
  intros (H1 & _) E Hk. unfold netwide in E. rewrite H1 in E.
  assert (Ek : nth_error (seq 0 (length ys)) k = Some k). { rewrite (nth_error_nth' _ 0%nat) by (now rewrite seq_length). now rewrite seq_nth. }
  destruct (mapM_nth _ _ _ _ _ E Ek) as (nw' & B & A). rewrite A. f_equal. symmetry. now apply nth_error_nth.
Qed.

(** Applied to the signals of all sensors, the network-wide filter of node [k] at
    iteration [i] gives the average over the bins of what the node computes from its own
    signals and the signals received from the others, fused with their external filters
    of iteration [i]; with the local coefficients of iteration [i], but the coefficients
    of the received signals of iteration [i - 1]. *)
Theorem C53_network_wide_output : forall ti filters ext ys F I nws k i,
  net_shapes ti filters ext ys F I -> netwide ti filters ext (map (@length cx) ys) = Ok nws ->
  (k < length ys)%nat -> (0 < i < I)%nat ->
  length (nth i (nth k nws []) []) = length (concat ys) /\
  dotH (nth i (nth k nws []) []) (concat ys) =
  average F (fun b => dotH (internal filters ys b i (i - 1) k) (observed ti ext ys b i k)).
Proof.
  intros ti filters ext ys F I nws k i HS E Hk Hi. apply (node_output ti filters ext ys F I HS ltac:(lia)); [exact Hk|exact Hi|].
  exact (netwide_nth _ _ _ _ _ _ _ _ HS E Hk).
Qed.

(** So it reproduces the output of the node whenever the coefficients of the received
    signals have not changed since the previous iteration. *)
Theorem C53_reproduces_output : forall ti filters ext ys F I nws k i,
  net_shapes ti filters ext ys F I -> netwide ti filters ext (map (@length cx) ys) = Ok nws ->
  (k < length ys)%nat -> (0 < i < I)%nat ->
  (forall b c, (b < F)%nat -> (length (nth k ys []) <= c < dC (nth k filters a0))%nat -> at3 (nth k filters a0) b (i - 1) c = at3 (nth k filters a0) b i c) ->
  dotH (nth i (nth k nws []) []) (concat ys) = average F (fun b => dotH (internal filters ys b i i k) (observed ti ext ys b i k)).
Proof.
  intros ti filters ext ys F I nws k i HS E Hk Hi H. destruct (C53_network_wide_output _ _ _ _ _ _ _ _ _ HS E Hk Hi) as (_ & ->).
  apply average_ext. intros b Hb. f_equal. unfold internal. apply map_ext_in. intros c Hc%in_seq. destruct (Nat.ltb_spec c (length (nth k ys []))); [reflexivity|]. apply H; lia.
Qed.

(** At the first iteration only the node's own signals count. *)
Theorem C53_first_iteration : forall ti filters ext ys F I nws k,
  net_shapes ti filters ext ys F I -> netwide ti filters ext (map (@length cx) ys) = Ok nws ->
  (k < length ys)%nat -> (0 < I)%nat ->
  dotH (nth 0 (nth k nws []) []) (concat ys) =
  average F (fun b => dotH (map (fun m => at3 (nth k filters a0) b 0 m) (seq 0 (length (nth k ys [])))) (nth k ys [])).
Proof.
  intros ti filters ext ys F I nws k HS E Hk HI. apply (node_output_0 ti filters ext ys F I HS HI); [exact Hk|]. exact (netwide_nth _ _ _ _ _ _ _ _ HS E Hk).
Qed.

(** Two nodes of one sensor, one bin, two iterations; node 0 goes from (1, 0) to (2, 1). *)
Definition exw (b i c : nat) : cx := match i, c with O, O => cr 1 | O, _ => cr 0 | _, O => cr 2 | _, _ => cr 1 end.
Definition exf : list arr3 := [mkA3 1 2 2 exw; mkA3 1 2 2 exw].
Definition exe : list arr3 := [mkA3 1 2 1 (fun _ _ _ => cr 1); mkA3 1 2 1 (fun _ _ _ => cr 1)].
Definition exy : list (list cx) := [[cr 1]; [cr 1]].
Example C53_example_shapes : net_shapes false exf exe exy 1 2.
Proof. split; [reflexivity|]. split; [reflexivity|]. intros q Hq. cbn in Hq. destruct q as [|[|q]]; [repeat split|repeat split|lia]. Qed.

(** While the filters change, the result is the output of the node neither with its
    filters of iteration [i] nor with those of iteration [i - 1]. *)
Theorem C53_changing_filters_refuted : exists filters ext ys nws,
  net_shapes false filters ext ys 1 2 /\ netwide false filters ext (map (@length cx) ys) = Ok nws /\
  dotH (nth 1 (nth 0 nws []) []) (concat ys) <> average 1 (fun b => dotH (internal filters ys b 1 1 0) (observed false ext ys b 1 0)) /\
  dotH (nth 1 (nth 0 nws []) []) (concat ys) <> average 1 (fun b => dotH (internal filters ys b 0 0 0) (observed false ext ys b 1 0)).
Proof.
  destruct (C53_succeeds false exf exe exy 1 2 C53_example_shapes ltac:(lia)) as (nws & E & _).
  exists exf, exe, exy, nws. split; [exact C53_example_shapes|]. split; [exact E|].
  destruct (C53_network_wide_output _ _ _ _ _ _ _ 0 1 C53_example_shapes E ltac:(cbn; lia) ltac:(lia)) as (_ & ->).
  split; intros Hc; apply (f_equal re) in Hc; unfold average in Hc; cbn in Hc; lra.
Qed.

Print Assumptions C53_succeeds.
Print Assumptions C53_network_wide_output.
Print Assumptions C53_reproduces_output.
Print Assumptions C53_first_iteration.
Print Assumptions C53_changing_filters_refuted.
