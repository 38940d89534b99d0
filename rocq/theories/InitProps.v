(** Initial filters: property C65. *)
From Verif Require Import Base Cx CxFacts BatchSig BatchSigSpec BatchSigFacts3 InitFilt.
From Coq Require Import Reals Lra.
Local Open Scope R_scope.
Local Open Scope cx_scope.

(** With the default initialisation every node passes its reference sensor through:
    before its first update, and whatever the others send, the output of a node, and
    of its local and centralised estimators, is the signal of its reference sensor. *)
Theorem C65_initial_output_is_reference :
  forall nn ms nbrs ti ref fixed rnd_int rnd_loc rnd_centr k (y : nat -> nat -> nat -> cx) t,
    (k < nn)%nat -> (ref < ms k)%nat ->
    (exists w, init_int ms nbrs ti SelectFirst ref fixed rnd_int k = Ok w /\
       forall e, output nn ms y (netwide ti ms nbrs k w e) t = y k t ref) /\
    (exists w, init_local ms SelectFirst ref fixed rnd_loc k = Ok w /\
       csum (ms k) (fun m => conj (w m) * y k t m) = y k t ref) /\
    (exists w, init_centr ms SelectFirst ref fixed rnd_centr nn k = Ok w /\
       output nn ms y (fun q m => w (offset ms q + m)%nat) t = y k t ref).
Proof.
  intros nn ms nbrs ti ref fixed rnd_int rnd_loc rnd_centr k y t Hk Hr.
  assert (C1 : forall z : cx, conj cone * z = z) by (intros; apply cx_eq; cbn; ring).
  assert (C0 : forall z : cx, conj czero * z = czero) by (intros; apply cx_eq; cbn; ring).
  assert (O : forall w : nfilter, (forall q m, (q < nn)%nat -> (m < ms q)%nat -> w q m = if (Nat.eqb q k && Nat.eqb m ref)%bool then cone else czero) -> output nn ms y w t = y k t ref).
  { intros w Hw. unfold output. rewrite (csum_single nn _ k Hk).
    - rewrite (csum_single (ms k) _ ref Hr).
      + rewrite Hw by assumption. rewrite !Nat.eqb_refl. apply C1.
      + intros m Hm Hne. rewrite Hw by assumption. rewrite Nat.eqb_refl. apply Nat.eqb_neq in Hne. rewrite Hne. apply C0.
    - intros q Hq Hne. rewrite (csum_ext (ms q) _ (fun _ => czero)); [apply csum_0|]. intros m Hm. rewrite Hw by assumption.
      apply Nat.eqb_neq in Hne. rewrite Hne. apply C0. }
  split; [|split].
  - unfold init_int, init_filter. destruct (Nat.ltb_spec ref (ms k + (if ti then 1 else length (nbrs k)))); [|lia]. eexists. split; [reflexivity|].
    intros e. apply O. intros q m Hq Hm. unfold netwide. destruct (Nat.eqb_spec q k) as [->|Hne]; [reflexivity|]. cbn [andb].
    destruct ti; [destruct (Nat.eqb_spec (ms k) ref); [lia | ring]|]. destruct (index_of q (nbrs k)) as [i|]; [|reflexivity].
    destruct (Nat.eqb_spec (ms k + i) ref); [lia | ring].
  - unfold init_local, init_filter. destruct (Nat.ltb_spec ref (ms k)); [|lia]. eexists. split; [reflexivity|].
    rewrite (csum_single (ms k) _ ref Hr); [rewrite Nat.eqb_refl; apply C1|]. intros m _ Hne. apply Nat.eqb_neq in Hne. rewrite Hne. apply C0.
  - unfold init_centr, init_filter. fold (offset ms k). fold (offset ms nn).
    assert (A : forall a b, (a <= b)%nat -> (offset ms a <= offset ms b)%nat) by (intros; apply offset_le; assumption).
    assert (B := A (S k) nn ltac:(lia)). rewrite offset_S in B.
    destruct (Nat.ltb_spec (offset ms k + ref) (offset ms nn)); [|lia]. eexists. split; [reflexivity|]. apply O. intros q m Hq Hm.
    destruct (Nat.eqb_spec q k) as [->|Hne]; cbn [andb].
    + destruct (Nat.eqb_spec (offset ms k + m) (offset ms k + ref)), (Nat.eqb_spec m ref); try lia; reflexivity.
    + destruct (Nat.eqb_spec (offset ms q + m) (offset ms k + ref)); [|reflexivity]. exfalso.
      destruct (Nat.lt_trichotomy q k) as [H1|[H1|H1]]; [|contradiction|].
      * assert (D := A (S q) k ltac:(lia)). rewrite offset_S in D. lia.
      * assert (D := A (S k) q ltac:(lia)). rewrite offset_S in D. lia.
Qed.

(** Except for random initialisation, what a node sends agrees with its own filter
    from the start (the condition of C63). *)
Theorem C65_sent_signals_match_filter :
  forall ms nbrs ti ty ref fixed rnd_int rnd_ext k, (ref < ms k)%nat -> ty <> Random ->
    exists w e, init_int ms nbrs ti ty ref fixed rnd_int k = Ok w /\ init_ext ms ti ty ref fixed rnd_int rnd_ext k = Ok e /\ forall m, e m = w m.
Proof.
  intros ms nbrs ti ty ref fixed rnd_int rnd_ext k Hr Hty. unfold init_int, init_ext, init_filter.
  destruct (Nat.ltb_spec ref (ms k + (if ti then 1 else length (nbrs k)))); [|lia].
  destruct (Nat.ltb_spec ref (if ti then ms k + 1 else ms k)); [|destruct ti; lia].
  destruct ty; try congruence; eauto.
Qed.
(** With random initialisation they need not: the node starts by sending a signal
    that its own filter has nothing to do with. *)
Theorem C65_random_mismatch_refuted :
  exists ms nbrs ref fixed rnd_int rnd_ext w e, (ref < ms 0)%nat /\
    init_int ms nbrs false Random ref fixed rnd_int 0 = Ok w /\ init_ext ms false Random ref fixed rnd_int rnd_ext 0 = Ok e /\ e ref <> w ref.
Proof.
  exists (fun _ => 1%nat), (fun _ => [1%nat]), 0%nat, 0, (fun _ _ => cone), (fun _ _ => czero). eexists. eexists.
  split; [lia|]. split; [reflexivity|]. split; [reflexivity|]. cbv beta. intros E. injection E. lra.
Qed.

(** TI-DANSE divides by the last coefficient (d_base.py 2502-2504): it is non-zero at
    the start exactly when the fixed value is used and not zero; in particular never
    with the default parameters. *)
Theorem C65_ti_division_defined_iff :
  forall ms ty ref fixed rnd_int rnd_ext k e, (ref < ms k)%nat -> ty <> Random ->
    init_ext ms true ty ref fixed rnd_int rnd_ext k = Ok e ->
    (e (ms k) <> czero <-> (ty = FixedValue \/ ty = SelectFixed) /\ fixed <> 0).
Proof.
  intros ms ty ref fixed rnd_int rnd_ext k e Hr Hty. unfold init_ext, init_filter. destruct (Nat.ltb_spec ref (ms k + 1)); [|lia].
  assert (A : cr fixed <> czero <-> fixed <> 0).
  { split; intros H' E; apply H'; [subst; reflexivity | injection E; auto]. }
  destruct ty; try congruence; intros E; injection E as <-.
  - destruct (Nat.eqb_spec (ms k) ref); [lia|]. split; [congruence | intros [[?|?] _]; discriminate].
  - rewrite A. intuition.
  - destruct (Nat.eqb_spec (ms k) ref); [lia|]. rewrite A. intuition.
Qed.
Theorem C65_ti_default_divides_by_zero_refuted :
  forall ms ref rnd_int rnd_ext k, (ref < ms k)%nat ->
    exists e, init_ext ms true SelectFirst ref 0 rnd_int rnd_ext k = Ok e /\ e (ms k) = czero.
Proof.
  intros ms ref rnd_int rnd_ext k Hr. unfold init_ext, init_filter. destruct (Nat.ltb_spec ref (ms k + 1)); [|lia].
  eexists. split; [reflexivity|]. cbv beta. destruct (Nat.eqb_spec (ms k) ref); [lia | reflexivity].
Qed.

(** Two sensors, two neighbours, the second sensor is the reference. *)
Example C65_ex : init_int (fun _ => 2%nat) (fun _ => [1; 2]%nat) false SelectFixed 1 (1/2) (fun _ _ => czero) 0 =
    Ok (fun c => if Nat.eqb c 1 then cone else cr (1/2)) /\
  init_centr (fun _ => 2%nat) SelectFirst 1 0 (fun _ _ => czero) 3 2 = Ok (fun c => if Nat.eqb c 5 then cone else czero) /\
  init_local (fun _ => 2%nat) SelectFirst 2 0 (fun _ _ => czero) 0 = Err IndexError.
Proof. repeat split. Qed.

Print Assumptions C65_initial_output_is_reference.
Print Assumptions C65_sent_signals_match_filter.
Print Assumptions C65_random_mismatch_refuted.
Print Assumptions C65_ti_division_defined_iff.
Print Assumptions C65_ti_default_divides_by_zero_refuted.
