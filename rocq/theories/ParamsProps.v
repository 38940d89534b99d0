(** C32, C33: validation of parameters, divisors. *)
From Verif Require Import Base BaseFacts Params Divis DivisFacts.
From Coq Require Import QArith String Ascii.
Open Scope string_scope.
Open Scope Z_scope.

(** The values the documentation allows. *)
Definition window_name (s : string) : Prop := s = "sqrthann" \/ s = "rect" \/ s = "rect_normNs".
Definition estimator_name (s : string) : Prop := s = "Oracle" \/ s = "CohDrift" \/ s = "DXCPPhaT".
Definition sim_name (s : string) : Prop := s = "batch" \/ s = "online".
Definition strategy_name (s : string) : Prop := s = "network-wide" \/ s = "node-specific".
(** A few-samples length given by the user must split the hop into equal parts. *)
Definition splits (l ns : Z) : Prop := l <> 0 /\ l <= ns /\ (l | ns).

Lemma one_of_spec s l : one_of s l = true <-> In s l.
Proof.
  unfold one_of. rewrite existsb_exists. split.
  - intros (x & Hx & E). apply String.eqb_eq in E. subst. exact Hx.
  - intros H. exists s. split; [exact H | apply String.eqb_refl].
Qed.
Lemma one_of_false s l : one_of s l = false <-> ~ In s l.
Proof. rewrite <- not_true_iff_false, one_of_spec. reflexivity. Qed.

Lemma mk_window_spec n s : 0 < n -> (mk_window n s = Ok tt /\ window_name s) \/ (mk_window n s = Err ValueError /\ ~ window_name s).
Proof.
  intros Hn. unfold mk_window, window_name. destruct (Z.ltb_spec n 0); [lia|].
  destruct (String.eqb_spec s "sqrthann") as [->|H1]; [left; auto|]. destruct (String.eqb_spec s "rect") as [->|H2]; [left; auto|].
  destruct (String.eqb_spec s "rect_normNs") as [->|H3]; [left; auto|]. right. split; [reflexivity | tauto].
Qed.
Lemma mk_window_neg n s : n <= 0 -> mk_window n s = Ok tt \/ mk_window n s = Err ValueError.
Proof.
  intros _. unfold mk_window. destruct (String.eqb s "sqrthann"), (String.eqb s "rect"), (String.eqb s "rect_normNs"), (n <? 0); auto.
Qed.

Lemma bc_length_spec ty l ns :
  match bc_length ty l ns with
  | Ok l' => (ty = "wholeChunk" -> l' = Some ns) /\ (ty = "fewSamples" -> (l = None /\ l' = Some 1) \/ (l' = l /\ exists v, l = Some v /\ splits v ns)) /\
             (ty <> "wholeChunk" -> ty <> "fewSamples" -> l' = l)
  | Err e => ty = "fewSamples" /\ exists v, l = Some v /\ ~ splits v ns
  end.
Proof.
  unfold bc_length, splits. destruct (String.eqb_spec ty "wholeChunk") as [->|H1].
  { split; [reflexivity|]. split; [discriminate | congruence]. }
  destruct (String.eqb_spec ty "fewSamples") as [->|H2]; [|split; [congruence|]; split; [congruence | reflexivity]].
  destruct l as [v|]; [|split; [congruence|]; split; [auto | congruence]].
  rewrite Z.gtb_ltb. destruct (Z.ltb_spec ns v); [split; [reflexivity|]; exists v; split; [reflexivity | lia]|].
  destruct (Z.eqb_spec v 0) as [->|Hv]; [split; [reflexivity|]; exists 0; split; [reflexivity | lia]|].
  destruct (Z.eqb_spec (ns mod v) 0) as [E|E]; cbn [negb].
  - split; [congruence|]. split; [|congruence]. intros _. right. split; [reflexivity|]. exists v. split; [reflexivity|]. split; [exact Hv|]. split; [lia|]. apply Z.mod_divide; assumption.
  - split; [reflexivity|]. exists v. split; [reflexivity|]. intros (_ & _ & H3). apply E. apply Z.mod_divide; assumption.
Qed.

(** C32: construction succeeds exactly on the documented values; a given
    few-samples length must split the hop. *)
Theorem C32_accepted_iff p : 0 < dft_size p ->
  ((exists q, post_init p = Ok q) <->
   window_name (win_ana p) /\ window_name (win_syn p) /\ estimator_name (estimate_sros p) /\ sim_name (sim_type p) /\
   strategy_name (lower (comp_strategy p)) /\
   (btype p = "fewSamples" -> forall l, blen p = Some l -> splits l (hop p))).
Proof.
  intros Hn. unfold post_init.
  destruct (mk_window_spec (dft_size p) (win_ana p) Hn) as [[-> W1]|[-> W1]]; cbn [bind]; [|split; [intros [q H]; discriminate | tauto]].
  destruct (mk_window_spec (dft_size p) (win_syn p) Hn) as [[-> W2]|[-> W2]]; cbn [bind]; [|split; [intros [q H]; discriminate | tauto]].
  destruct (Z.leb_spec (dft_size p) 0); [lia|]. cbn [bind]. assert (B := bc_length_spec (btype p) (blen p) (hop p)).
  destruct (bc_length _ _ _) as [l|e]; cbn [bind].
  2:{ destruct B as [Hb [v [Hv Hs]]]. split; [intros [q Hq]; discriminate|]. intros (_ & _ & _ & _ & _ & H6). exfalso. apply Hs. apply H6; assumption. }
  destruct B as (_ & B & _).
  destruct (one_of (estimate_sros p) _) eqn:E1; cbn [negb].
  2:{ apply one_of_false in E1. split; [intros [q Hq]; discriminate|]. intros (_ & _ & H3 & _). exfalso. apply E1. unfold estimator_name in H3. cbn. intuition congruence. }
  destruct (one_of (sim_type p) _) eqn:E2; cbn [negb].
  2:{ apply one_of_false in E2. split; [intros [q Hq]; discriminate|]. intros (_ & _ & _ & H3 & _). exfalso. apply E2. unfold sim_name in H3. cbn. intuition congruence. }
  destruct (one_of (lower (comp_strategy p)) _) eqn:E3; cbn [negb].
  2:{ apply one_of_false in E3. split; [intros [q Hq]; discriminate|]. intros (_ & _ & _ & _ & H3 & _). exfalso. apply E3. unfold strategy_name in H3. cbn. intuition congruence. }
  apply one_of_spec in E1, E2, E3. cbn in E1, E2, E3. split; [intros _ | intros _; eexists; reflexivity].
  split; [exact W1|]. split; [exact W2|]. split; [unfold estimator_name; intuition congruence|]. split; [unfold sim_name; intuition congruence|].
  split; [unfold strategy_name; intuition congruence|]. intros Hb v Hv. destruct (B Hb) as [[B1 _]|[_ [v' [B2 B3]]]]; [congruence|]. rewrite Hv in B2. injection B2 as <-. exact B3.
Qed.

(** C32: a non-positive DFT size is always rejected. *)
Theorem C32_dft_size_positive p q : post_init p = Ok q -> 0 < dft_size p.
Proof.
  unfold post_init. destruct (mk_window _ (win_ana p)); [|discriminate]. destruct (mk_window _ (win_syn p)); [|discriminate]. cbn [bind].
  destruct (Z.leb_spec (dft_size p) 0); [discriminate | intros _; assumption].
Qed.

(** C32: the broadcast length of an accepted parameter set. *)
Theorem C32_broadcast_length p q : post_init p = Ok q ->
  (btype p = "wholeChunk" -> blen q = Some (hop p)) /\
  (btype p = "fewSamples" -> blen p = None -> blen q = Some 1) /\
  (btype p = "fewSamples" -> forall l, blen p = Some l -> blen q = Some l /\ splits l (hop p) /\ exists m, hop p = m * l).
Proof.
  unfold post_init. destruct (mk_window _ (win_ana p)); [|discriminate]. destruct (mk_window _ (win_syn p)); [|discriminate]. cbn [bind].
  destruct (dft_size p <=? 0); [discriminate|]. cbn [bind]. assert (B := bc_length_spec (btype p) (blen p) (hop p)).
  destruct (bc_length _ _ _) as [l|e]; [|discriminate]. cbn [bind]. destruct (negb _); [discriminate|]. destruct (negb _); [discriminate|]. destruct (negb _); [discriminate|].
  intros H. injection H as <-. cbn [blen]. destruct B as (B1 & B2 & _). split; [exact B1|]. split.
  - intros Hb Hn. destruct (B2 Hb) as [[_ ->]|[_ (v & Hv & _)]]; [reflexivity | congruence].
  - intros Hb v Hv. destruct (B2 Hb) as [[Hn _]|[-> (v' & Hv' & Hs)]]; [congruence|]. rewrite Hv in Hv'. injection Hv' as <-. split; [exact Hv|]. split; [exact Hs|]. destruct Hs as (_ & _ & [m Hm]). exists m. exact Hm.
Qed.

(** C32: every other field is kept, except that the strategy is lower-cased and
    the external-filter period is zero without relaxation. *)
Theorem C32_other_fields p q : post_init p = Ok q ->
  dft_size q = dft_size p /\ ovlp q = ovlp p /\ hop q = hop p /\ win_ana q = win_ana p /\ win_syn q = win_syn p /\ btype q = btype p /\
  estimate_sros q = estimate_sros p /\ sim_type q = sim_type p /\ no_relax q = no_relax p /\ comp_strategy q = lower (comp_strategy p) /\
  t_ext q = (if no_relax p then 0%Q else t_ext p).
Proof.
  unfold post_init. destruct (mk_window _ (win_ana p)); [|discriminate]. destruct (mk_window _ (win_syn p)); [|discriminate]. cbn [bind].
  destruct (dft_size p <=? 0); [discriminate|]. cbn [bind]. destruct (bc_length _ _ _) as [l|e]; [|discriminate]. cbn [bind].
  destruct (negb _); [discriminate|]. destruct (negb _); [discriminate|]. destruct (negb _); [discriminate|].
  intros H. injection H as <-. repeat split.
Qed.

(** C32 refuted in part: a negative length, or an unknown broadcast type with any
    length, is accepted. *)
Definition base_params (ty : string) (l : option Z) : params :=
  mkP 8 (1 # 2) "sqrthann" "rect" ty l "Oracle" false 1 "online" "Node-Specific".
Theorem C32_positive_refuted : exists p q, 0 < hop p /\ btype p = "fewSamples" /\ post_init p = Ok q /\ blen q = Some (-2).
Proof. exists (base_params "fewSamples" (Some (-2))). eexists. repeat split. Qed.
Theorem C32_unknown_type_refuted : exists p q, btype p <> "fewSamples" /\ btype p <> "wholeChunk" /\ post_init p = Ok q /\ hop q = 4 /\ blen q = Some 7.
Proof. exists (base_params "fewSample" (Some 7)). eexists. split; [discriminate|]. split; [discriminate|]. repeat split. Qed.
Theorem C32_default_longer_than_hop_refuted : exists p q, btype p = "fewSamples" /\ post_init p = Ok q /\ hop p = 0 /\ blen q = Some 1.
Proof. exists (mkP 8 1 "sqrthann" "rect" "fewSamples" None "Oracle" false 1 "online" "node-specific"). eexists. repeat split. Qed.

Example C32_ex_ok : exists q, post_init (base_params "fewSamples" (Some 2)) = Ok q /\ blen q = Some 2 /\ comp_strategy q = "node-specific".
Proof. eexists. repeat split. Qed.
Example C32_ex_bad : post_init (base_params "fewSamples" (Some 3)) = Err ValueError /\ post_init (base_params "fewSamples" (Some 5)) = Err ValueError /\
  post_init (base_params "fewSamples" (Some 0)) = Err ZeroDivisionError.
Proof. repeat split. Qed.
Example C32_ex_hop : hop (mkP 512 (3 # 4) "rect" "rect" "wholeChunk" None "Oracle" false 1 "online" "node-specific") = 128.
Proof. reflexivity. Qed.

(** C33 *)
Theorem C33_divisors_exactly_once n : 1 <= n ->
  exists l, get_divisors n = Ok l /\ NoDup l /\ forall d, In d l <-> 0 < d /\ (d | n).
Proof. exact (get_divisors_spec n). Qed.
Example C33_ex : get_divisors 12 = Ok [1; 3; 2; 6; 4; 12].
Proof. vm_compute. reflexivity. Qed.

Print Assumptions C32_accepted_iff.
Print Assumptions C32_dft_size_positive.
Print Assumptions C32_broadcast_length.
Print Assumptions C32_other_fields.
Print Assumptions C32_positive_refuted.
Print Assumptions C32_unknown_type_refuted.
Print Assumptions C32_default_longer_than_hop_refuted.
Print Assumptions C33_divisors_exactly_once.
