From Verif Require Import Base BaseFacts SigGen SigGenSpec SigGenFacts SigGenFacts2 Prep PrepSpec.
From Coq Require Import QArith Reals Lra.
Local Open Scope R_scope.

Lemma where_seq b n m : (b <= m < b + n)%nat -> first_where (Nat.eqb m) (seq b n) = Ok (m - b)%nat.
Proof.
  intros H. assert (S := first_where_spec (Nat.eqb m) (seq b n)). destruct (first_where (Nat.eqb m) (seq b n)) as [i|e].
  - destruct S as (x & E & P & _). assert (Hi : (i < n)%nat) by (rewrite <- (seq_length n b); apply nth_error_Some; rewrite E; discriminate).
    apply nth_error_nth with (d := 0%nat) in E. rewrite seq_nth in E by exact Hi. apply Nat.eqb_eq in P. f_equal. lia.
  - exfalso. destruct S as [_ S]. specialize (S (m - b)%nat m). rewrite Nat.eqb_refl in S.
    discriminate S. rewrite (nth_error_nth' _ 0%nat) by (rewrite seq_length; lia). rewrite seq_nth by lia. f_equal. lia.
Qed.
Lemma firstn_skipn_seq b n t : (b + n <= t)%nat -> firstn n (skipn b (seq 0 t)) = seq b n.
Proof.
  intros H. replace t with (b + (n + (t - b - n)))%nat by lia. rewrite seq_app, skipn_app, seq_length, Nat.sub_diag, skipn_all2 by (rewrite seq_length; lia). cbn [skipn app Nat.add].
  rewrite seq_app, firstn_app, seq_length, Nat.sub_diag, firstn_all2 by (rewrite seq_length; lia). cbn [firstn]. apply app_nil_r.
Qed.
Lemma local_ok ms m k : belongs ms m k -> local_index (sensor_map ms) m = Ok (k, m - before ms k)%nat.
Proof.
  intros H. unfold local_index. assert (E : get (sensor_map ms) m = Ok k) by (unfold get; apply sensor_map_spec in H; rewrite H; reflexivity). rewrite E. cbn [bind].
  destruct H as [H1 H2]. assert (B := before_le ms k H2). rewrite sensor_map_length, (sensors_of_spec ms k) by (rewrite ?seq_length; auto).
  rewrite firstn_skipn_seq by lia. rewrite where_seq by lia. reflexivity.
Qed.
Lemma belongs_lt ms m : (m < list_sum ms)%nat -> exists k, belongs ms m k.
Proof.
  intros H. rewrite <- (sensor_map_length ms) in H. destruct (nth_error (sensor_map ms) m) as [k|] eqn:E; [exists k; apply sensor_map_spec; exact E|]. apply nth_error_None in E. lia.
Qed.

Lemma nth_upd {A} (l : list A) i j x d : (i < length l)%nat -> nth j (upd i x l) d = if Nat.eqb j i then x else nth j l d.
Proof.
  revert i j. induction l as [|a l IH]; intros i j H; [cbn in H; lia|]. destruct i as [|i], j as [|j]; try reflexivity. cbn [upd nth Nat.eqb]. apply IH. cbn in H. lia.
Qed.
Lemma length_upd {A} (l : list A) i x : length (upd i x l) = length l.
Proof. revert i. induction l as [|a l IH]; intros [|i]; cbn; try reflexivity. f_equal. apply IH. Qed.

Lemma replace_ok ms wasn m k x s n : network ms wasn -> belongs ms m k ->
  exists wasn', replace_one (sensor_map ms) wasn (m, (x, s, n)) = Ok wasn' /\ network ms wasn' /\
  (forall k', rest_kept (node_at wasn k') (node_at wasn' k')) /\
  (forall k', ref_signals (node_at wasn k') -> ref_signals (node_at wasn' k')) /\
  (forall k' j, (k' < length ms)%nat -> (j < nth k' ms 0)%nat -> sensor_signals ms wasn' k' j = if Nat.eqb (before ms k' + j) m then (x, s, n) else sensor_signals ms wasn k' j).
Proof.
  intros [NL N] B. unfold replace_one. rewrite (local_ok ms m k B). cbn [bind fst snd]. assert (B' := B). destruct B' as [B1 B2].
  assert (G : get wasn k = Ok (node_at wasn k)) by (unfold get, node_at; rewrite (nth_error_nth' wasn no_node) by lia; reflexivity). rewrite G. cbn [bind].
  destruct (N k B2) as (D1 & D2 & D3 & D4). cbn zeta in *. set (nd := node_at wasn k) in *. set (j0 := (m - before ms k)%nat) in *. assert (Hj0 : (j0 < nth k ms 0)%nat) by lia.
  unfold replace_sensor. rewrite D1. destruct (Nat.ltb_spec j0 (nth k ms 0%nat)); [|lia].
  assert (G1 : get (upd j0 s (nd_speech nd)) (nd_ref nd) = Ok (nth (nd_ref nd) (upd j0 s (nd_speech nd)) [])) by (unfold get; rewrite (nth_error_nth' _ []) by (rewrite length_upd; lia); reflexivity).
  assert (G2 : get (upd j0 n (nd_noise nd)) (nd_ref nd) = Ok (nth (nd_ref nd) (upd j0 n (nd_noise nd)) [])) by (unfold get; rewrite (nth_error_nth' _ []) by (rewrite length_upd; lia); reflexivity).
  rewrite G1. cbn [bind]. rewrite G2. cbn [bind]. eexists. split; [reflexivity|].
  match goal with |- context [upd k ?nd' wasn] => set (nd1 := nd') end.
  assert (A : forall k', node_at (upd k nd1 wasn) k' = if Nat.eqb k' k then nd1 else node_at wasn k') by (intros k'; unfold node_at; apply nth_upd; lia).
  repeat split.
  - rewrite length_upd. exact NL.
  - rewrite A. destruct (Nat.eqb_spec k0 k) as [->|]; [cbn [nd1 nd_data]; rewrite length_upd; exact D1|apply N; assumption].
  - rewrite A. destruct (Nat.eqb_spec k0 k) as [->|]; [cbn [nd1 nd_speech]; rewrite length_upd; exact D2|apply N; assumption].
  - rewrite A. destruct (Nat.eqb_spec k0 k) as [->|]; [cbn [nd1 nd_noise]; rewrite length_upd; exact D3|apply N; assumption].
  - rewrite A. destruct (Nat.eqb_spec k0 k) as [->|]; [exact D4|apply N; assumption].
  - rewrite A. destruct (Nat.eqb_spec k' k) as [->|]; reflexivity.
  - rewrite A. destruct (Nat.eqb_spec k' k) as [->|]; reflexivity.
  - rewrite A. destruct (Nat.eqb_spec k' k) as [->|]; reflexivity.
  - rewrite A. destruct (Nat.eqb_spec k' k) as [->|]; reflexivity.
  - rewrite A. destruct (Nat.eqb_spec k' k) as [->|]; reflexivity.
  - rewrite A. destruct (Nat.eqb_spec k' k) as [->|]; [reflexivity|apply H0].
  - rewrite A. destruct (Nat.eqb_spec k' k) as [->|]; [reflexivity|apply H0].
  - intros k' j Hk' Hj. unfold sensor_signals. rewrite A. destruct (Nat.eqb_spec k' k) as [->|Hne].
    + cbn [nd1 nd_data nd_speech nd_noise]. rewrite !nth_upd by lia. fold nd. destruct (Nat.eqb_spec j j0) as [E0|E0], (Nat.eqb_spec (before ms k + j) m) as [E|E]; try reflexivity; lia.
    + destruct (Nat.eqb_spec (before ms k' + j) m) as [E|E]; [|reflexivity]. exfalso.
      assert (B3 : belongs ms m k') by (split; [lia|exact Hk']). apply sensor_map_spec in B, B3. rewrite B in B3. injection B3 as ->. congruence.
Qed.

Lemma fold_err l s2n e : fold_left (fun (w : res (list node)) md => do w <- w; replace_one s2n w md) l (Err e) = Err e.
Proof. induction l as [|a l IH]; [reflexivity|exact IH]. Qed.

Lemma replace_all ms l : forall wasn, network ms wasn -> (forall md, In md l -> (fst md < list_sum ms)%nat) ->
  exists wasn', fold_left (fun w md => do w <- w; replace_one (sensor_map ms) w md) l (Ok wasn) = Ok wasn' /\ network ms wasn' /\
  (forall k', rest_kept (node_at wasn k') (node_at wasn' k')) /\
  (forall k', ref_signals (node_at wasn k') -> ref_signals (node_at wasn' k')) /\
  (forall k j, (k < length ms)%nat -> (j < nth k ms 0)%nat ->
    (~ In (before ms k + j)%nat (map fst l) -> sensor_signals ms wasn' k j = sensor_signals ms wasn k j) /\
    (forall l1 l2 xsn, l = l1 ++ ((before ms k + j)%nat, xsn) :: l2 -> ~ In (before ms k + j)%nat (map fst l2) -> sensor_signals ms wasn' k j = xsn)).
Proof.
  induction l as [|[m [[x s] n]] l IH]; intros wasn Hn Hl.
  - exists wasn. split; [reflexivity|]. split; [exact Hn|]. split; [intros; repeat split|]. split; [auto|]. intros k j Hk Hj. split; [reflexivity|]. intros l1 l2 xsn E. destruct l1; discriminate.
  - cbn [fold_left bind]. destruct (belongs_lt ms m (Hl _ (or_introl eq_refl))) as [k0 Hk0]. destruct (replace_ok ms wasn m k0 x s n Hn Hk0) as (w1 & E1 & N1 & R1 & S1 & V1). rewrite E1.
    destruct (IH w1 N1 (fun md I => Hl md (or_intror I))) as (w2 & E2 & N2 & R2 & S2 & V2). exists w2. split; [exact E2|]. split; [exact N2|].
    split; [intros k'; destruct (R1 k') as (a1 & a2 & a3 & a4 & a5), (R2 k') as (b1 & b2 & b3 & b4 & b5); repeat split; congruence|]. split; [intros k' H; apply S2, S1, H|].
    intros k j Hk Hj. destruct (V2 k j Hk Hj) as [V2a V2b]. specialize (V1 k j Hk Hj). split.
    + cbn [map fst In]. intros H. rewrite V2a by tauto. rewrite V1. destruct (Nat.eqb_spec (before ms k + j) m) as [E|E]; [exfalso; apply H; left; congruence|reflexivity].
    + intros [|md l1] l2 xsn E H.
      * cbn [app] in E. injection E as Em Ex El. subst l. rewrite V2a by exact H. rewrite V1, <- Em, Nat.eqb_refl. exact Ex.
      * cbn [app] in E. injection E as _ El. exact (V2b l1 l2 xsn El H).
Qed.
