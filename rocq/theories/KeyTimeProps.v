(** C76: the part of the signals over which the metrics are computed. *)
From Verif Require Import Base BaseFacts KeyTime KeyTimeSpec KeyTimeFacts.
From Coq Require Import QArith Qround Lqa.
Local Open Scope nat_scope.

(** 'end_1st_utterance' is the start of the first pause that lasts as long as required,
    pauses before it being too short to end an utterance; IndexError if no pause between two
    speech samples lasts that long. *)
Theorem C76_end_first v fs d : 2 <= length v ->
  (exists a b, separates v fs d a b /\ key_time EndFirst v fs d = Ok (seconds a fs)) \/
  ((forall a b, pause v a b -> ~ lasts fs d a b) /\ key_time EndFirst v fs d = Err IndexError).
Proof.
  intros L. destruct v as [|v0 [|v1 v']]; [cbn in L; lia..|]. set (v := v0 :: v1 :: v') in *.
  change (key_time EndFirst v fs d) with (do j <- jump (S (length (changes v))) (changes v) (d * fs) (start v); do a <- get (changes v) j; Ok (seconds a fs)).
  destruct (separated v fs d) as [(j & a & b & E & H1 & H2 & S0)|[E N]]; rewrite E; cbn [bind].
  - left. exists a, b. split; [exact S0|]. unfold get. now rewrite H1.
  - right. split; [exact N|reflexivity].
Qed.

(** 'beginning_2nd_utterance' is the end of that pause, plus the duration asked for. *)
Theorem C76_beginning_second x v fs d : 2 <= length v ->
  (exists a b, separates v fs d a b /\ key_time (BegSecond x) v fs d = Ok (seconds b fs + x)%Q) \/
  ((forall a b, pause v a b -> ~ lasts fs d a b) /\ key_time (BegSecond x) v fs d = Err IndexError).
Proof.
  intros L. destruct v as [|v0 [|v1 v']]; [cbn in L; lia..|]. set (v := v0 :: v1 :: v') in *.
  change (key_time (BegSecond x) v fs d) with (do j <- jump (S (length (changes v))) (changes v) (d * fs) (start v); do b <- get (changes v) (j + 1); Ok (seconds b fs + x)%Q).
  destruct (separated v fs d) as [(j & a & b & E & H1 & H2 & S0)|[E N]]; rewrite E; cbn [bind].
  - left. exists a, b. split; [exact S0|]. unfold get. now rewrite Nat.add_1_r, H2.
  - right. split; [exact N|reflexivity].
Qed.

(** 'beginning_1st_utterance' is the first speech sample; IndexError without speech. *)
Theorem C76_beginning_first v fs d : 2 <= length v -> ~ (fs == 0)%Q ->
  (exists i t, first_speech v i /\ key_time BegFirst v fs d = Ok t /\ (t == seconds i fs)%Q) \/
  ((forall i, ~ speech v i) /\ key_time BegFirst v fs d = Err IndexError).
Proof.
  intros L Hf. pose proof (first_found v L) as F. destruct v as [|v0 [|v1 v']]; [cbn in L; lia..|]. set (v := v0 :: v1 :: v') in *.
  change (key_time BegFirst v fs d) with (if (if v0 then 0 else 1) <? 1 then Ok 0%Q else do a <- get (changes v) ((if v0 then 0 else 1) - 1); Ok (seconds a fs)).
  destruct F as [[V0 F]|[V0 F]]; cbn [v nth] in V0; rewrite V0; cbn [Nat.ltb Nat.leb Nat.sub].
  - left. exists 0, 0%Q. split; [exact F|]. split; [reflexivity|]. unfold seconds. cbn. field. exact Hf.
  - unfold get. destruct F as [(a & H & F)|[H F]]; rewrite H; cbn [bind]; [left|right; split; [exact F|reflexivity]].
    exists a, (seconds a fs). split; [exact F|]. split; reflexivity.
Qed.

(** The window of the metrics goes from the sample designated as the start to the one
    designated as the end, the end of the signals by default; in batch runs the last frame is
    left out. *)
Theorem C76_window sref eref v fs d i j : (0 < fs)%Q -> 2 <= length v ->
  designates v fs d sref i -> match eref with None => j = Z.of_nat (length v) | Some _ => designates v fs d eref j end ->
  window sref eref v fs d None = Ok (i, j) /\
  forall N, window sref eref v fs d (Some N) = Ok (i, Z.min j (Z.of_nat (length v) - N)).
Proof.
  intros Hf L Hs He.
  assert (K : forall r k, designates v fs d (Some r) k -> exists t, key_time r v fs d = Ok t /\ Qfloor (t * fs) = k).
  { intros r k H. assert (U : forall a b a' b', separates v fs d a b -> separates v fs d a' b' -> a = a' /\ b = b') by (intros; eapply separates_unique; eassumption).
    inversion H as [|a b S0 E1 E2|x F E1 E2|x a b S0 E1 E2|x E1 E2]; subst.
    - destruct (C76_end_first v fs d L) as [(a' & b' & S1 & E)|[N _]]; [|exfalso; exact (N a b (proj1 S0) (proj1 (proj2 S0)))].
      destruct (U _ _ _ _ S0 S1) as [<- <-]. eexists. split; [exact E|now apply floor_seconds].
    - destruct (C76_beginning_first v fs d L ltac:(lra)) as [(i' & t & F' & E & Et)|[N _]]; [|exfalso; exact (N x (proj1 F))].
      exists t. split; [exact E|]. assert (i' = x). { destruct (Nat.lt_trichotomy i' x) as [Hx|[Hx|Hx]]; [|exact Hx|].
        - pose proof (proj2 F i' Hx) as Q1. pose proof (proj1 F') as Q2. unfold silence, speech in *. congruence.
        - pose proof (proj2 F' x Hx) as Q1. pose proof (proj1 F) as Q2. unfold silence, speech in *. congruence. }
      subst i'. rewrite <- (floor_seconds x fs Hf). apply Qfloor_comp. now rewrite Et.
    - destruct (C76_beginning_second x v fs d L) as [(a' & b' & S1 & E)|[N _]]; [|exfalso; exact (N a b (proj1 S0) (proj1 (proj2 S0)))].
      destruct (U _ _ _ _ S0 S1) as [<- <-]. eexists. split; [exact E|now apply floor_seconds_plus].
    - exists x. split; [|reflexivity]. destruct v as [|v0 [|v1 v']]; [cbn in L; lia..|reflexivity]. }
  assert (A : exists t, start_time sref v fs d = Ok t /\ Qfloor (t * fs) = i).
  { destruct sref as [r|]; [now apply K|]. inversion Hs. exists 0%Q. split; reflexivity. }
  assert (B : exists t, end_time eref v fs d = Ok t /\ Qfloor (t * fs) = j).
  { destruct eref as [r|]; [now apply K|]. subst j. eexists. split; [reflexivity|now apply floor_seconds]. }
  destruct A as (ta & Ea & Fa), B as (tb & Eb & Fb). unfold window. rewrite Ea, Eb. cbn [bind]. rewrite Fa, Fb. split; [reflexivity|].
  intros N. do 2 f_equal. destruct (Z.ltb_spec (Z.of_nat (length v) - N) j); lia.
Qed.

(** As the code stands, a signal with a single utterance has no end of the first utterance
    (and no second one, the default start of the metrics): IndexError, however long the
    silence that follows. *)
Theorem C76_one_utterance_refuted x y z fs d : 0 < y -> 2 <= x + y + z ->
  let v := repeat false x ++ repeat true y ++ repeat false z in
  key_time EndFirst v fs d = Err IndexError /\ forall s, key_time (BegSecond s) v fs d = Err IndexError.
Proof.
  intros Hy L v. assert (Lv : length v = x + y + z) by (unfold v; rewrite !app_length, !repeat_length; lia).
  assert (N : forall a b, ~ pause v a b).
  { intros a b (B & P & S0 & Q0). pose proof (one_run x y z) as R1. fold v in R1. apply R1 in P. apply R1 in S0. specialize (Q0 a ltac:(lia)).
    assert (S1 : speech v a) by (apply R1; lia). unfold silence, speech in *. congruence. }
  split; [|intros s].
  - destruct (C76_end_first v fs d ltac:(lia)) as [(a & b & S0 & _)|[_ E]]; [destruct (N a b (proj1 S0))|exact E].
  - destruct (C76_beginning_second s v fs d ltac:(lia)) as [(a & b & S0 & _)|[_ E]]; [destruct (N a b (proj1 S0))|exact E].
Qed.

(** ** Eight samples at 2 Hz, pauses of one and two samples; an utterance ends with one second
    of silence *)
Definition c76_v : list bool := [false; true; false; true; true; false; false; true].
Example C76_ex_pauses : separates c76_v 2 1 5 7 /\ first_speech c76_v 1.
Proof.
  assert (P : pause c76_v 5 7). { split; [lia|]. split; [reflexivity|]. split; [reflexivity|]. intros i Hi. assert (i = 5 \/ i = 6) as [-> | -> ] by lia; reflexivity. }
  split.
  - split; [exact P|]. split; [vm_compute; discriminate|]. intros a b (B & _ & S0 & Q0) La. assert (Hb : a = 2 /\ b = 3).
    { pose proof (Q0 a ltac:(lia)) as Qa. assert (a = 2). { destruct a as [|[|[|[|[|a]]]]]; try lia; try discriminate Qa. }
      subst a. split; [reflexivity|]. destruct (Nat.eq_dec b 3) as [E|E]; [exact E|]. specialize (Q0 3 ltac:(lia)). discriminate Q0. }
    destruct Hb as [-> ->]. intros H. vm_compute in H. now apply H.
  - split; [reflexivity|]. intros j Hj. assert (j = 0) by lia. subst j. reflexivity.
Qed.
Example C76_ex_times : (exists t, key_time EndFirst c76_v 2 1 = Ok t /\ (t == 5 # 2)%Q) /\ (exists t, key_time BegFirst c76_v 2 1 = Ok t /\ (t == 1 # 2)%Q) /\
  (exists t, key_time (BegSecond (1 # 2)) c76_v 2 1 = Ok t /\ (t == 4)%Q).
Proof. split; [|split]; (eexists; split; [reflexivity|reflexivity]). Qed.
Example C76_ex_window : window (Some (BegSecond 0)) None c76_v 2 1 None = Ok (7, 8)%Z /\ window (Some BegFirst) None c76_v 2 1 (Some 4%Z) = Ok (1, 4)%Z /\
  window None (Some EndFirst) c76_v 2 1 None = Ok (0, 5)%Z.
Proof. split; [|split]; reflexivity. Qed.
Example C76_ex_one_utterance : key_time EndFirst [true; true; false; false; false; false] 2 1 = Err IndexError.
Proof. exact (proj1 (C76_one_utterance_refuted 0 2 4 2 1 ltac:(lia) ltac:(lia))). Qed.

Print Assumptions C76_end_first.
Print Assumptions C76_beginning_second.
Print Assumptions C76_beginning_first.
Print Assumptions C76_window.
Print Assumptions C76_one_utterance_refuted.
