(** Facts about the network-wide filters. *)
From Verif Require Import Base BaseFacts Buffers BufFacts CentrSpec CentrFacts Cx CxFacts Netwide NetwideSpec.
From Coq Require Import Reals Lra Ring.
Local Open Scope R_scope.
Add Ring cxring : cx_ring.

Lemma average_conj F f : conj (average F f) = average F (fun b => conj (f b)).
Proof. unfold average. now rewrite conj_mul, conj_cr, csum_conj. Qed.
Lemma average_ext F f g : (forall b, (b < F)%nat -> f b = g b) -> average F f = average F g.
Proof. intros H. unfold average. now rewrite (csum_ext F f g H). Qed.
Lemma average_add F f g : average F (fun b => (f b + g b)%cx) = (average F f + average F g)%cx.
Proof. unfold average. rewrite csum_add. ring. Qed.
Lemma average_scale F f a : (average F f * a)%cx = average F (fun b => (f b * a)%cx).
Proof. unfold average. rewrite csum_scale_r. ring. Qed.
Lemma average_csum F n f : average F (fun b => csum n (f b)) = csum n (fun c => average F (fun b => f b c)).
Proof. unfold average. rewrite csum_swap, <- csum_scale. reflexivity. Qed.
Lemma average_0 F : average F (fun _ => czero) = czero.
Proof. unfold average. rewrite csum_0. ring. Qed.

Lemma dotH_app a y a' y' : length a = length y -> dotH (a ++ a') (y ++ y') = (dotH a y + dotH a' y')%cx.
Proof.
  intros H. unfold dotH. rewrite app_length, csum_app. f_equal; apply csum_ext; intros c Hc.
  - now rewrite !app_nth1 by lia.
  - rewrite !app_nth2 by lia. rewrite H. do 3 f_equal; lia.
Qed.
Lemma dotH_nil a : dotH a [] = czero. Proof. reflexivity. Qed.
Lemma dotH_cons v a z y : dotH (v :: a) (z :: y) = (conj v * z + dotH a y)%cx.
Proof. unfold dotH. cbn [length]. rewrite csum_S_l. reflexivity. Qed.

Lemma lsum_app a b : lsum (a ++ b) = (lsum a + lsum b)%cx.
Proof. unfold lsum. induction a; cbn [app fold_right]; [ring|]. rewrite IHa. ring. Qed.

Lemma dotH_blocks (f : nat -> list cx) ys : forall s, (forall q, (q < length ys)%nat -> length (f (s + q)%nat) = length (nth q ys [])) ->
  dotH (flat_map f (seq s (length ys))) (concat ys) = lsum (map (fun q => dotH (f (s + q)%nat) (nth q ys [])) (seq 0 (length ys))).
Proof.
  induction ys as [|y ys IH]; intros s H; [reflexivity|]. cbn [length seq flat_map concat].
  rewrite dotH_app by (specialize (H 0%nat ltac:(cbn; lia)); now rewrite Nat.add_0_r in H).
  cbn [map lsum fold_right nth]. rewrite Nat.add_0_r. f_equal. rewrite IH by (intros q Hq; specialize (H (S q) ltac:(cbn; lia)); now rewrite <- Nat.add_succ_comm in H).
  rewrite <- seq_shift, map_map. unfold lsum. f_equal. apply map_ext. intros q. now rewrite Nat.add_succ_comm.
Qed.

Lemma nth_map_seq {B} (f : nat -> B) n i d : (i < n)%nat -> nth i (map f (seq 0 n)) d = f i.
Proof. intros H. rewrite (nth_indep (map f _) d (f 0%nat)) by (now rewrite map_length, seq_length). rewrite map_nth, seq_nth by exact H. reflexivity. Qed.

Lemma dotH_average F n (v : nat -> nat -> cx) y : length y = n ->
  dotH (map (fun m => average F (v m)) (seq 0 n)) y = average F (fun b => dotH (map (fun m => v m b) (seq 0 n)) y).
Proof.
  intros <-. unfold dotH. rewrite average_csum. apply csum_ext. intros c Hc. rewrite nth_map_seq by exact Hc. rewrite average_conj, average_scale.
  apply average_ext. intros b _. now rewrite nth_map_seq by exact Hc.
Qed.
Lemma dotH_scale n (v : nat -> cx) g y : length y = n -> dotH (map (fun m => (v m * g)%cx) (seq 0 n)) y = (conj g * dotH (map v (seq 0 n)) y)%cx.
Proof.
  intros <-. unfold dotH. rewrite <- csum_scale. apply csum_ext. intros c Hc. rewrite !nth_map_seq by exact Hc. rewrite conj_mul. ring.
Qed.
Lemma dotH_zeros n y : dotH (repeat czero n) y = czero.
Proof. unfold dotH. rewrite (csum_ext _ _ (fun _ => czero)); [apply csum_0|]. intros c _. rewrite nth_repeat. change (conj czero) with (mkC 0 (- 0)). apply cx_eq; cbn; ring. Qed.

(** * rank of a node among the others *)
Definition rank (k q : nat) : nat := if (q <? k)%nat then q else (q - 1)%nat.
Definition count_others (k n : nat) : nat := if (n <=? k)%nat then n else (n - 1)%nat.

(** the block of node [q] at iteration [i] *)
Definition block (ti : bool) (w : arr3) (ext : list arr3) (nsens : list nat) (k i q : nat) : list cx :=
  let nk := nth k nsens 0%nat in let n := nth q nsens 0%nat in let e := nth q ext a0 in
  if Nat.eqb q k then map (fun m => average (dF w) (fun b => at3 w b i m)) (seq 0 nk)
  else if Nat.eqb i 0 then repeat czero n
  else map (fun m => average (dF w) (fun b => ((if ti then cdiv (at3 e b i m) (at3 e b i n) else at3 e b i m) * at3 w b (i - 1) (if ti then nk else nk + rank k q))%cx)) (seq 0 n).

Lemma block_len ti w ext nsens k i q : length (block ti w ext nsens k i q) = nth q nsens 0%nat.
Proof.
  unfold block. destruct (Nat.eqb_spec q k) as [->|]; [now rewrite map_length, seq_length|]. destruct (Nat.eqb i 0); [apply repeat_length|now rewrite map_length, seq_length].
Qed.

Lemma beside_ok (a b : list (list cx)) : length a = length b -> exists r, beside a b = Ok r /\ length r = length a /\ forall i, nth i r [] = nth i a [] ++ nth i b [].
Proof.
  intros H. unfold beside. rewrite H, Nat.eqb_refl. eexists. split; [reflexivity|]. rewrite map_length, combine_length. split; [lia|]. intros i.
  set (f := fun p : list cx * list cx => fst p ++ snd p). etransitivity; [exact (map_nth f (combine a b) ([], []) i)|]. rewrite combine_nth by exact H. reflexivity.
Qed.

Lemma other_block_ok (ti : bool) w e g n : dF e = dF w -> dI e = dI w -> (0 < dI w)%nat -> (g < dC w)%nat -> dC e = (if ti then n + 1 else n)%nat ->
  exists c, other_block ti w e g = Ok c /\ length c = dI w /\ forall i, (i < dI w)%nat ->
    nth i c [] = if Nat.eqb i 0 then repeat czero n else map (fun m => average (dF w) (fun b => ((if ti then cdiv (at3 e b i m) (at3 e b i n) else at3 e b i m) * at3 w b (i - 1) g)%cx)) (seq 0 n).
Proof.
  intros HF HI Hpos Hg HC. unfold other_block. rewrite HF, HI, !Nat.eqb_refl. cbn [andb negb].
  destruct (Nat.leb_spec (dC w) g); [lia|]. destruct (Nat.eqb_spec (dC e) 0) as [E0|E0].
  - destruct ti; [lia|]. cbn [andb]. assert (n = 0)%nat as -> by lia. rewrite E0. eexists. split; [reflexivity|]. cbn [length seq map repeat].
    rewrite map_length, seq_length. split; [lia|]. intros [|i] Hi; [reflexivity|]. cbn [nth Nat.eqb]. now rewrite nth_map_seq by lia.
  - rewrite andb_false_r. set (C := if ti then (dC e - 1)%nat else dC e). assert (EC : C = n) by (unfold C; destruct ti; lia). rewrite EC.
    eexists. split; [reflexivity|]. cbn [length]. rewrite map_length, seq_length. split; [lia|]. intros [|i] Hi; [reflexivity|]. cbn [nth Nat.eqb]. rewrite nth_map_seq by lia.
    replace (S i - 1)%nat with i by lia. apply map_ext. intros m. unfold mean_bins, average. destruct ti; reflexivity.
Qed.

Lemma node_ok (ti : bool) filters ext nsens K F I k : (k < K)%nat -> length filters = K -> length nsens = K -> (0 < I)%nat ->
  dF (nth k filters a0) = F -> dI (nth k filters a0) = I ->
  dC (nth k filters a0) = (if ti then nth k nsens 0 + 1 else nth k nsens 0 + (K - 1))%nat ->
  (forall q, (q < K)%nat -> q <> k -> dF (nth q ext a0) = F /\ dI (nth q ext a0) = I /\ dC (nth q ext a0) = (if ti then nth q nsens 0 + 1 else nth q nsens 0)%nat) ->
  exists nw, netwide_node ti filters ext nsens k = Ok nw /\ length nw = I /\
    forall i, (i < I)%nat -> nth i nw [] = flat_map (block ti (nth k filters a0) ext nsens k i) (seq 0 K).
Proof.
  intros Hk HK HN HI EF EI EC He. unfold netwide_node. rewrite HK. set (w := nth k filters a0) in *.
  set (f := fun st q => _).
  assert (G : forall n, (n <= K)%nat -> exists nw, foldM f (seq 0 n) (repeat [] (dI w), 0%nat) = Ok (nw, count_others k n) /\ length nw = I /\
    forall i, (i < I)%nat -> nth i nw [] = flat_map (block ti w ext nsens k i) (seq 0 n)).
  { induction n as [|n IH]; intros Hn.
    - exists (repeat [] (dI w)). split; [reflexivity|]. rewrite repeat_length. split; [exact EI|]. intros i Hi. cbn [seq flat_map]. apply nth_repeat.
    - destruct IH as (nw & E & Hl & Hr); [lia|]. rewrite seq_S, foldM_app, E. cbn [bind foldM Nat.add]. unfold f at 1. cbn [fst snd].
      destruct (Nat.eqb_spec n k) as [->|Hnk].
      + destruct (beside_ok nw (local_block w (nth k nsens 0%nat))) as (r & Er & Hrl & Hrr).
        { unfold local_block. rewrite map_length, seq_length. congruence. }
        rewrite Er. cbn [bind]. exists r. split; [|split; [congruence|]].
        * unfold count_others. destruct (Nat.leb_spec k k); [|lia]. destruct (Nat.leb_spec (S k) k); [lia|]. replace (S k - 1)%nat with k by lia. reflexivity.
        * intros i Hi. rewrite Hrr, Hr, flat_map_app by exact Hi. f_equal. cbn [flat_map]. rewrite app_nil_r. unfold block. rewrite Nat.eqb_refl.
          unfold local_block. rewrite nth_map_seq by lia. rewrite Nat.min_l by (rewrite EC; destruct ti; lia). reflexivity.
      + destruct (He n ltac:(lia) Hnk) as (e1 & e2 & e3).
        assert (Hcr : count_others k n = rank k n). { unfold count_others, rank. destruct (Nat.leb_spec n k), (Nat.ltb_spec n k); lia. }
        set (g := if ti then nth k nsens 0%nat else (nth k nsens 0 + count_others k n)%nat).
        assert (Hg : (g < dC w)%nat). { unfold g. rewrite EC, Hcr. unfold rank. destruct ti; [lia|]. destruct (Nat.ltb_spec n k); lia. }
        destruct (other_block_ok ti w (nth n ext a0) g (nth n nsens 0%nat)) as (c & Ec & Hcl & Hcn); [congruence|congruence|lia|exact Hg|exact e3|].
        rewrite Ec. cbn [bind]. destruct (beside_ok nw c) as (r & Er & Hrl & Hrr); [congruence|]. rewrite Er. cbn [bind]. exists r. split; [|split; [congruence|]].
        * unfold count_others. destruct (Nat.leb_spec n k), (Nat.leb_spec (S n) k); try lia; try reflexivity; do 2 f_equal; lia.
        * intros i Hi. rewrite Hrr, Hr, flat_map_app by exact Hi. f_equal. cbn [flat_map]. rewrite app_nil_r. rewrite Hcn by lia. unfold block.
          destruct (Nat.eqb_spec n k); [contradiction|]. unfold g. rewrite Hcr. reflexivity. }
  destruct (G K (Nat.le_refl _)) as (nw & E & Hl & Hr). rewrite E. cbn [bind fst]. exists nw. split; [reflexivity|]. now split.
Qed.

Lemma rank_others K k : (k < K)%nat -> map (rank k) (others K k) = seq 0 (K - 1).
Proof.
  intros Hk. unfold others. rewrite map_app. replace (K - 1)%nat with (k + (K - S k))%nat by lia. rewrite seq_app. f_equal.
  - rewrite <- (map_id (seq 0 k)) at 2. apply map_ext_in. intros q Hq%in_seq. unfold rank. destruct (Nat.ltb_spec q k); [reflexivity|lia].
  - rewrite <- seq_shift, map_map. cbn [Nat.add]. etransitivity; [|apply map_id]. apply map_ext_in. intros q Hq%in_seq. unfold rank. destruct (Nat.ltb_spec (S q) k); lia.
Qed.
Lemma dotH_maps {A} (f z : A -> cx) l : dotH (map f l) (map z l) = lsum (map (fun q => conj (f q) * z q)%cx l).
Proof. induction l as [|a l IH]; [reflexivity|]. cbn [map]. rewrite dotH_cons, IH. reflexivity. Qed.
Lemma average_lsum {A} F (h : nat -> A -> cx) l : average F (fun b => lsum (map (h b) l)) = lsum (map (fun q => average F (fun b => h b q)) l).
Proof. induction l as [|a l IH]; cbn [map lsum fold_right]; [apply average_0|]. rewrite average_add. unfold lsum in IH. now rewrite IH. Qed.
Lemma lsum_split K k (h : nat -> cx) : (k < K)%nat -> lsum (map h (seq 0 K)) = (h k + lsum (map h (others K k)))%cx.
Proof.
  intros Hk. unfold others. replace (seq 0 K) with (seq 0 k ++ k :: seq (S k) (K - S k)).
  - rewrite !map_app, !lsum_app. cbn [map]. unfold lsum at 2. cbn [fold_right]. fold (lsum (map h (seq (S k) (K - S k)))). ring.
  - replace K with (k + S (K - S k))%nat at 2 by lia. rewrite seq_app. reflexivity.
Qed.
Lemma lsum_scale {A} a (h : A -> cx) l : lsum (map (fun q => a * h q)%cx l) = (a * lsum (map h l))%cx.
Proof. induction l as [|b l IH]; cbn [map lsum fold_right]; [ring|]. unfold lsum in *. rewrite IH. ring. Qed.
Lemma in_others K k q : (k < K)%nat -> In q (others K k) <-> (q < K)%nat /\ q <> k.
Proof. intros Hk. unfold others. rewrite in_app_iff, !in_seq. lia. Qed.

Section Main.
  Variables (ti : bool) (filters ext : list arr3) (ys : list (list cx)) (F I : nat).
  Hypothesis HS : net_shapes ti filters ext ys F I.
  Hypothesis HI : (0 < I)%nat.
  Definition counts : list nat := map (@length cx) ys.
  Lemma counts_nth q : nth q counts 0%nat = length (nth q ys []).
  Proof. unfold counts. change 0%nat with (length (@nil cx)). apply map_nth. Qed.

  Lemma node_filters k : (k < length ys)%nat -> exists nw, netwide_node ti filters ext counts k = Ok nw /\ length nw = I /\
    forall i, (i < I)%nat -> nth i nw [] = flat_map (block ti (nth k filters a0) ext counts k i) (seq 0 (length ys)).
  Proof.
    intros Hk. destruct HS as (H1 & H2 & H3). destruct (H3 k Hk) as (A & B & C & _).
    apply (node_ok ti filters ext counts (length ys) F I k Hk H1); [unfold counts; now rewrite map_length|exact HI|exact A|exact B|now rewrite counts_nth|].
    intros q Hq _. destruct (H3 q Hq) as (_ & _ & _ & A' & B' & C'). now rewrite counts_nth.
  Qed.

  Lemma node_output k nw i : (k < length ys)%nat -> (0 < i < I)%nat -> netwide_node ti filters ext counts k = Ok nw ->
    length (nth i nw []) = length (concat ys) /\
    dotH (nth i nw []) (concat ys) = average F (fun b => dotH (internal filters ys b i (i - 1) k) (observed ti ext ys b i k)).
  Proof.
    intros Hk Hi E. destruct (node_filters k Hk) as (nw' & E' & _ & Hr). assert (nw' = nw) as -> by congruence. rewrite Hr by lia.
    destruct HS as (H1 & H2 & H3). destruct (H3 k Hk) as (EF & EI & EC & _). set (K := length ys) in *. set (w := nth k filters a0) in *.
    assert (Hb : forall q, (q < K)%nat -> length (block ti w ext counts k i q) = length (nth q ys [])) by (intros; rewrite block_len; apply counts_nth).
    split.
    { clear - Hb. unfold K in Hb |- *. generalize (block ti w ext counts k i) as f, Hb. clear. intros f.
      assert (G : forall (l : list (list cx)) s, (forall q, (q < length l)%nat -> length (f (s + q)%nat) = length (nth q l [])) -> length (flat_map f (seq s (length l))) = length (concat l)).
      { induction l as [|y l IH]; intros s H; [reflexivity|]. cbn [length seq flat_map concat]. rewrite !app_length. pose proof (H 0%nat ltac:(cbn; lia)) as A. rewrite Nat.add_0_r in A. cbn [nth] in A.
        rewrite A. f_equal. apply IH. intros q Hq. specialize (H (S q) ltac:(cbn; lia)). now rewrite <- Nat.add_succ_comm in H. }
      intros H. now apply (G ys 0%nat). }
    unfold K. rewrite (dotH_blocks _ ys 0 Hb). fold K. cbn [Nat.add].
    rewrite (lsum_split K k) by exact Hk.
    assert (Hrhs : forall b, dotH (internal filters ys b i (i - 1) k) (observed ti ext ys b i k) =
      (dotH (map (fun m => at3 w b i m) (seq 0 (length (nth k ys [])))) (nth k ys []) +
       lsum (map (fun q => conj (at3 w b (i - 1) (if ti then length (nth k ys []) else length (nth k ys []) + rank k q)) * sent ti ext ys b i q) (others K k)))%cx).
    { intros b. unfold internal, observed. fold w. rewrite EC. set (n := length (nth k ys [])).
      replace (if ti then n + 1 else n + (K - 1))%nat with (n + (if ti then 1 else K - 1))%nat by (destruct ti; reflexivity).
      rewrite seq_app, map_app, dotH_app by (rewrite map_length, seq_length; reflexivity). f_equal.
      - f_equal. apply map_ext_in. intros m Hm%in_seq. destruct (Nat.ltb_spec m n); [reflexivity|lia].
      - replace (map (fun c => at3 w b (if (c <? n)%nat then i else (i - 1)%nat) c) (seq (0 + n) (if ti then 1 else (K - 1)%nat)))
          with (map (fun c => at3 w b (i - 1) (n + c)) (seq 0 (if ti then 1 else (K - 1)%nat))).
        2: { assert (Es : forall len, seq (0 + n) len = map (Nat.add n) (seq 0 len)).
             { intros len. cbn [Nat.add]. induction len; [reflexivity|]. rewrite !seq_S, map_app, IHlen. reflexivity. }
             rewrite Es, map_map. apply map_ext. intros c. destruct (Nat.ltb_spec (n + c) n); [lia|reflexivity]. }
        fold K. destruct ti.
        + cbn [seq map]. rewrite dotH_cons, dotH_nil, Nat.add_0_r, lsum_scale. ring.
        + rewrite <- (rank_others K k Hk), map_map. apply dotH_maps. }
    rewrite (average_ext F _ _ (fun b _ => Hrhs b)), average_add, average_lsum. f_equal.
    - unfold block. rewrite Nat.eqb_refl, EF. rewrite counts_nth. now rewrite dotH_average.
    - f_equal. apply map_ext_in. intros q (Hq & Hqk)%in_others; [|exact Hk]. unfold block. destruct (Nat.eqb_spec q k); [contradiction|]. destruct (Nat.eqb_spec i 0); [lia|].
      rewrite EF, !counts_nth. rewrite dotH_average by reflexivity. apply average_ext. intros b _. rewrite dotH_scale by reflexivity. unfold sent. reflexivity.
  Qed.

  Lemma node_output_0 k nw : (k < length ys)%nat -> netwide_node ti filters ext counts k = Ok nw ->
    dotH (nth 0 nw []) (concat ys) = average F (fun b => dotH (map (fun m => at3 (nth k filters a0) b 0 m) (seq 0 (length (nth k ys [])))) (nth k ys [])).
  Proof.
    intros Hk E. destruct (node_filters k Hk) as (nw' & E' & _ & Hr). assert (nw' = nw) as -> by congruence. rewrite Hr by lia.
    destruct HS as (H1 & H2 & H3). destruct (H3 k Hk) as (EF & EI & EC & _).
    rewrite dotH_blocks by (intros; cbn [Nat.add]; rewrite block_len; apply counts_nth). cbn [Nat.add].
    rewrite (lsum_split (length ys) k) by exact Hk.
    assert (Z : lsum (map (fun q => dotH (block ti (nth k filters a0) ext counts k 0 q) (nth q ys [])) (others (length ys) k)) = czero).
    { rewrite (map_ext_in _ (fun _ => czero)).
      - induction (others (length ys) k); [reflexivity|]. cbn [map lsum fold_right]. unfold lsum in IHl. rewrite IHl. ring.
      - intros q (Hq & Hqk)%in_others; [|exact Hk]. unfold block. destruct (Nat.eqb_spec q k); [contradiction|]. cbn [Nat.eqb]. apply dotH_zeros. }
    rewrite Z. unfold block. rewrite Nat.eqb_refl, EF, counts_nth. rewrite dotH_average by reflexivity. ring.
  Qed.
End Main.
