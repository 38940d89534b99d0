(** Property C30: outputs for a mixture and for its components.  Vocabulary:
    OnlineSpec.v; the run itself is modelled in Online.v. *)
From Verif Require Import Base BaseFacts Sched Buffers Chunk ChunkSpec Cx CxFacts Wola WolaFacts WolaProps Dist Online OnlineSpec OnlineFacts3.
From Coq Require Import Reals Lra.
Local Open Scope R_scope.

(** ** C30 *)
(** Few-samples broadcasting: with the same coefficients, the three runs either all
    stop with the same error or all finish, and then every output sample of every node
    (DANSE and local estimates) for the mixture is the sum of those for its components.
    Any schedule, windows, broadcast length, coefficients and offset estimates. *)
Theorem C30_few_samples c y s n sched nsens ref T :
  p_whole (o_p c) = false -> mixture y s n ->
  let run x := online_run c x sched (online_init 0 c nsens ref T) in
  (exists e, run y = Err e /\ run s = Err e /\ run n = Err e) \/
  (exists ry rs rn, run y = Ok ry /\ run s = Ok rs /\ run n = Ok rn /\
     outputs_add (os_d ry) (os_d rs) (os_d rn) /\ outputs_add (os_dl ry) (os_dl rs) (os_dl rn)).
Proof. intros Hw Hm. exact (superposition c y s n sched nsens ref T Hm (or_introl Hw)). Qed.

(** Whole-chunk broadcasting: the same, as long as no node sends a silent block in one of
    the runs and not in the others. *)
Theorem C30_whole_chunk c y s n sched nsens ref T :
  mixture y s n -> silent_together c y s n sched (online_init 0 c nsens ref T) ->
  let run x := online_run c x sched (online_init 0 c nsens ref T) in
  (exists e, run y = Err e /\ run s = Err e /\ run n = Err e) \/
  (exists ry rs rn, run y = Ok ry /\ run s = Ok rs /\ run n = Ok rn /\
     outputs_add (os_d ry) (os_d rs) (os_d rn) /\ outputs_add (os_dl ry) (os_dl rs) (os_dl rn)).
Proof. intros Hm Hs. exact (superposition c y s n sched nsens ref T Hm (or_intror Hs)). Qed.

(** A filter exchanging the two samples of a block. *)
Lemma swap_block a b prev :
  exists zh, compress_whole_chunk 2 1 [1; 1] [1; 1] [[cr 1; cr (-1)]] [[a; b]] prev =
    if all_zero prev then Ok (zh, [b; a])
    else do p <- fit 1 (py_from (-1) prev); Ok (zh, [(nth 0 p 0 + b) / 2; a]).
Proof.
  assert (E : fused_spectrum 2 1 [1; 1] [[cr 1; cr (-1)]] [[a; b]] = map (dft 2 (fun m => cr (nth m [b; a] 0))) (seq 0 2)).
  { unfold fused_spectrum. cbn [Nat.div Nat.divmod fst Nat.add seq map length]. unfold dft, csum. cbn [nth INR].
    rewrite sqrt_1. apply f_equal2; [|apply f_equal2; [|reflexivity]]; apply cx_eq; cbn [re im cmul cadd czero cr cis conj];
    replace (- (2 * PI * 1 * 1 / (1 + 1))) with (- PI) by field;
    repeat match goal with |- context [cos ?x] => lazymatch x with 0 => fail | PI => fail | (- PI) => fail | _ => replace x with 0 by (unfold Rdiv; ring) end end;
    rewrite ?cos_neg, ?sin_neg, ?cos_PI, ?sin_PI, ?cos_0, ?sin_0; field. }
  pose proof (C20_round_trip 1 [b; a] (Nat.lt_0_succ 0) eq_refl) as RT. cbv zeta in RT. cbn [Nat.mul Nat.add] in RT.
  unfold compress_whole_chunk. rewrite E. cbn [Nat.add] in RT |- *. rewrite RT. cbn [bind map seq].
  eexists. cbn [INR nth re cr]. rewrite sqrt_1.
  replace (1 * b * 1) with b by ring. replace (1 * a * 1) with a by ring.
  destruct (all_zero prev); [reflexivity|]. cbn [Nat.sub Z.of_nat Z.opp].
  change (Z.neg (Pos.of_succ_nat 0)) with (-1)%Z.
  destruct (fit 1 (py_from (-1) prev)) as [p|e]; cbn [bind]; [|reflexivity].
  pose proof (norm_val_2 1 [1; 1] (Nat.lt_0_succ 0) eq_refl) as NV. cbn [Nat.mul Nat.add seq map nth] in NV. rewrite NV. cbn [bind nth Nat.ltb Nat.leb].
  do 3 f_equal; [field|]. f_equal. ring.
Qed.
Lemma all_zero_cons v l : v <> 0 -> all_zero (v :: l) = false.
Proof. intros H. unfold all_zero. cbn. now destruct (Req_EM_T v 0). Qed.

(** It fails for whole-chunk broadcasting when one component is silent over a frame: two
    broadcasts of a node with one sensor; the first speech block is silent. *)
Theorem C30_whole_chunk_refuted :
  exists h f w (y s n : nat -> list (list R)) zy zs zn,
    (forall m, (m < 2)%nat -> outputs_add (y m) (s m) (n m)) /\ silent (nth 0 (s 0%nat) []) /\
    compress_run 2 1 h f (fun _ => w) y 2 0 [] = Ok zy /\ compress_run 2 1 h f (fun _ => w) s 2 0 [] = Ok zs /\
    compress_run 2 1 h f (fun _ => w) n 2 0 [] = Ok zn /\ ~ outputs_add zy zs zn.
Proof.
  set (s := fun m : nat => match m with 0%nat => [[0; 0]] | _ => [[0; 2]] end).
  set (n := fun m : nat => [[1; 1]]).
  set (y := fun m : nat => match m with 0%nat => [[1; 1]] | _ => [[1; 3]] end).
  exists [1; 1], [1; 1], [[cr 1; cr (-1)]], y, s, n, [[1; 1]; [2; 1]], [[0; 0]; [2; 0]], [[1; 1]; [1; 1]].
  assert (Z2 : all_zero [0; 0] = true) by (apply all_zero_true; intros v [<-|[<-|[]]]; reflexivity).
  assert (O2 : all_zero [1; 1] = false) by (apply all_zero_cons; lra).
  assert (Z0 : all_zero [] = true) by reflexivity.
  split; [|split; [|split; [|split; [|split]]]].
  - intros [|[|m]] Hm; [..|lia]; (split; [reflexivity|split; [reflexivity|]]); intros [|[|k]] [|[|[|i]]]; unfold at2; cbn; lra.
  - cbn. intros v [<-|[<-|[]]]; reflexivity.
  - cbn [compress_run]. destruct (swap_block 1 1 []) as [z1 E1]. rewrite Z0 in E1. cbn [y]. rewrite E1. cbn [bind snd].
    destruct (swap_block 1 3 [1; 1]) as [z2 E2]. rewrite O2 in E2. cbn [y]. rewrite E2. cbn [bind snd].
    change (fit 1 (py_from (-1) [1; 1])) with (Ok [1] : res (list R)). cbn [bind snd nth]. do 4 f_equal. lra.
  - cbn [compress_run]. destruct (swap_block 0 0 []) as [z1 E1]. rewrite Z0 in E1. cbn [s]. rewrite E1. cbn [bind snd].
    destruct (swap_block 0 2 [0; 0]) as [z2 E2]. rewrite Z2 in E2. cbn [s]. rewrite E2. reflexivity.
  - cbn [compress_run]. destruct (swap_block 1 1 []) as [z1 E1]. rewrite Z0 in E1. unfold n. rewrite E1. cbn [bind snd].
    destruct (swap_block 1 1 [1; 1]) as [z2 E2]. rewrite O2 in E2. rewrite E2. cbn [bind snd].
    change (fit 1 (py_from (-1) [1; 1])) with (Ok [1] : res (list R)). cbn [bind snd nth]. do 4 f_equal. lra.
  - intros (_ & _ & H). specialize (H 1%nat 0%nat). unfold at2 in H. cbn in H. lra.
Qed.

(** Two nodes, blocks of two samples, one sample per broadcast, given filters that change:
    the run finishes. *)
Definition ex_cfg : ocfg :=
  mkO (mkP 2 1 1 false false false false false 0 0) [mkNode 1 [0; 1; 2; 3; 4]%Z [1%nat]; mkNode 1 [0; 1; 2; 3; 4]%Z [0%nat]]
      [1; 1] [1; 1] true true true 1 false
      (fun k i => [[cr (INR i + 1); cr (INR k)]]) (fun k i => [[cr (INR i); cr 1]; [cr 2; cr (INR k)]]) (fun k i => [[cr 1; cr 1]])
      (fun k i => [0]).
Definition ex_sched : list instant :=
  [mkInst 1 [(0%nat, Bc); (1%nat, Bc)] [false; false]; mkInst 2 [(0%nat, Bc); (1%nat, Bc); (0%nat, Up); (1%nat, Up)] [false; false; false; false];
   mkInst 3 [(0%nat, Bc); (1%nat, Bc); (0%nat, Up)] [false; false; false]].
Example C30_example :
  mixture [[[1; 2; 3; 4]]; [[5; 6; 7; 8]]] [[[1; 1; 1; 1]]; [[0; 0; 0; 4]]] [[[0; 1; 2; 3]]; [[5; 6; 7; 4]]] /\
  exists r, online_run ex_cfg [[[1; 2; 3; 4]]; [[5; 6; 7; 8]]] ex_sched (online_init 0 ex_cfg [1; 1]%nat 0 4) = Ok r.
Proof.
  split.
  - split; [reflexivity|split; [reflexivity|]].
    intros [|[|[|k]]] [|[|c]] [|[|[|[|[|i]]]]]; unfold at3; cbn; lra.
  - match goal with |- exists r, ?x = Ok r => assert (E : match x with Ok _ => true | Err _ => false end = true); [|destruct x as [r|]; [now exists r|discriminate]] end.
    reflexivity.
Qed.

Print Assumptions C30_few_samples.
Print Assumptions C30_whole_chunk.
Print Assumptions C30_whole_chunk_refuted.
