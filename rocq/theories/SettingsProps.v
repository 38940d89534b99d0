(** Theorems about the consistency of the settings (C87). *)
From Coq Require Import String Ascii QArith.
From Verif Require Import Base BaseFacts Params ParamsProps Settings.
Local Open Scope string_scope.

(** Settings that fit together, in terms of the settings alone. *)
Record consistent (s : settings) : Prop := {
  ok_type : sim_type (s_danse s) = "batch" \/ sim_type (s_danse s) = "online";
  ok_strategy : comp_strategy (s_danse s) = "network-wide" \/ comp_strategy (s_danse s) = "node-specific";
  ok_compensation : s_topology s = "fully-connected" -> s_comp s = true -> comp_strategy (s_danse s) = "node-specific";
  ok_updating : s_topology s <> "fully-connected" -> exists a b, s_updating s = a ++ "topo-indep" ++ b;
  ok_broadcast : s_topology s <> "fully-connected" -> s_ssbc s = false;
  ok_offsets : s_updating s = "sim" -> forall x, In x (s_sros s) -> (x == 0)%Q;
  ok_condition : s_save_cond s = x_condition (s_exports s);
  ok_batch : sim_type (s_danse s) = "batch" -> x_filters (s_exports s) = false /\ x_norms (s_exports s) = false;
  ok_online : sim_type (s_danse s) = "online" -> x_norms (s_exports s) = true;
  ok_room : s_room s = false -> x_scene (s_exports s) = false;
  ok_signal : s_signal s <> "from_file" -> x_waveforms (s_exports s) = false /\ x_metrics (s_exports s) = false /\ x_wav (s_exports s) = false }.

Lemma index_split sub : forall s n, String.index 0 sub s = Some n -> exists a b, s = a ++ sub ++ b.
Proof.
  assert (P : forall a s, prefix a s = true -> exists b, s = a ++ b).
  { induction a as [|c a IH]; intros s H; [exists s; reflexivity|]. destruct s as [|d s]; [discriminate|]. cbn in H. destruct (ascii_dec c d) as [<-|]; [|discriminate]. destruct (IH _ H) as (b & ->). exists b. reflexivity. }
  induction s as [|c s IH]; intros n H.
  - cbn in H. destruct sub; [exists "", ""; reflexivity|discriminate].
  - change (String.index 0 sub (String c s)) with (if prefix sub (String c s) then Some O else match String.index 0 sub s with Some m => Some (S m) | None => None end) in H. destruct (prefix sub (String c s)) eqn:E.
    + destruct (P _ _ E) as (b & Eb). exists "", b. exact Eb.
    + destruct (String.index 0 sub s) as [m|] eqn:Em; [|discriminate]. destruct (IH _ eq_refl) as (a & b & ->). exists (String c a), b. reflexivity.
Qed.
Lemma contains_split sub s : contains sub s = true -> exists a b, s = a ++ sub ++ b.
Proof. unfold contains. destruct (String.index 0 sub s) eqn:E; [|discriminate]. intros _. exact (index_split _ _ _ E). Qed.
Lemma any_sro_false l : any_sro l = false -> forall x, In x l -> (x == 0)%Q.
Proof.
  intros H x Hx. unfold any_sro in H. destruct (Qeq_bool x 0) eqn:E; [apply Qeq_bool_iff, E|]. exfalso. assert (existsb (fun x => negb (Qeq_bool x 0)) l = true) by (apply existsb_exists; exists x; rewrite E; split; [exact Hx|reflexivity]). congruence.
Qed.
Lemma one_of2 s a b : one_of s [a; b] = true -> s = a \/ s = b.
Proof. cbn. intros H. destruct (String.eqb_spec s a); [left; assumption|]. destruct (String.eqb_spec s b); [right; assumption|discriminate]. Qed.
Lemma post_init_names p q : post_init p = Ok q -> (sim_type q = "batch" \/ sim_type q = "online") /\ (comp_strategy q = "network-wide" \/ comp_strategy q = "node-specific").
Proof.
  unfold post_init. intros H. repeat (apply bind_ok in H; destruct H as (? & ? & H)). destruct (negb _); [discriminate|].
  destruct (one_of (sim_type p) _) eqn:E1; cbn [negb] in H; [|discriminate]. destruct (one_of (lower (comp_strategy p)) _) eqn:E2; cbn [negb] in H; [|discriminate]. injection H as <-. cbn [sim_type comp_strategy].
  split; apply one_of2; assumption.
Qed.
(** What an accepted run of the checks looks like. *)
Lemma check_inv f a s s' a' : check_settings f a s = Ok (s', a') -> exists p p',
  post_init (s_danse s) = Ok p /\ (String.eqb (s_updating s) "sim" && any_sro (s_sros s) = false) /\
  (if fully_connected s && s_comp s && String.eqb (comp_strategy p) "network-wide" then ask a = Ok (true, a') /\ p' = with_strategy p "node-specific" else a' = a /\ p' = p) /\
  check_start f (s_start s) (s_dur s) = Ok tt /\
  s' = mkS p' (if fully_connected s then s_updating s else if contains "topo-indep" (s_updating s) then s_updating s else "topo-indep_" ++ s_updating s) (s_comp s)
    (if fully_connected s then s_ssbc s else false) (x_condition (s_exports s)) (s_start s) (s_topology s) (s_sros s) (s_dur s) (s_signal s) (s_room s)
    (adjust_exports (sim_type p') (s_signal s) (s_room s) (s_exports s)).
Proof.
  unfold check_settings. intros H. apply bind_ok in H. destruct H as (p & Ep & H). destruct (String.eqb (s_updating s) "sim" && any_sro (s_sros s)) eqn:E1; [discriminate|].
  destruct (post_init_names _ _ Ep) as [Nt Ns]. assert (Ew : String.eqb (sim_type p) "batch_wola_estimation" = false) by (destruct Nt as [-> | ->]; reflexivity). rewrite Ew in H. cbn [andb bind] in H.
  destruct (fully_connected s && s_comp s && String.eqb (comp_strategy p) "network-wide") eqn:E2.
  - apply bind_ok in H. destruct H as ([p' a2] & E3 & H). apply bind_ok in E3. destruct E3 as ([b a3] & E3 & E4). cbn [fst snd] in E4. destruct b; [|discriminate]. injection E4 as <- <-.
    apply bind_ok in H. destruct H as ([] & E5 & H). injection H as <- <-. exists p, (with_strategy p "node-specific"). rewrite E2. repeat split; try assumption.
  - cbn [bind] in H. apply bind_ok in H. destruct H as ([] & E5 & H). injection H as <- <-. exists p, p. rewrite E2. repeat split; assumption.
Qed.

(** Accepted settings fit together. *)
Theorem C87_consistent f a s s' a' : check_settings f a s = Ok (s', a') -> consistent s'.
Proof.
  intros H. destruct (check_inv _ _ _ _ _ H) as (p & p' & Ep & E1 & E2 & E3 & ->). destruct (post_init_names _ _ Ep) as [Nt Ns]. unfold fully_connected in *.
  assert (T : sim_type p' = sim_type p /\ (comp_strategy p' = "network-wide" \/ comp_strategy p' = "node-specific") /\ (s_topology s = "fully-connected" -> s_comp s = true -> comp_strategy p' = "node-specific")).
  { destruct (_ && _ && _) eqn:E in E2; destruct E2 as [_ ->]; cbn [with_strategy sim_type comp_strategy]; (split; [reflexivity|]).
    - split; [right; reflexivity|reflexivity].
    - split; [exact Ns|]. intros Ht Hc. rewrite Ht, Hc in E. cbn in E. destruct Ns as [N|N]; [rewrite N in E; discriminate|exact N]. }
  destruct T as (T1 & T2 & T3). constructor; cbn [s_danse s_updating s_comp s_ssbc s_save_cond s_topology s_sros s_exports s_room s_signal adjust_exports x_condition x_filters x_norms x_scene x_waveforms x_metrics x_wav].
  - rewrite T1. exact Nt.
  - exact T2.
  - exact T3.
  - intros Ht. apply String.eqb_neq in Ht. rewrite Ht. destruct (contains "topo-indep" (s_updating s)) eqn:E; [apply contains_split, E|]. exists "", ("_" ++ s_updating s). reflexivity.
  - intros Ht. apply String.eqb_neq in Ht. rewrite Ht. reflexivity.
  - intros Hu. apply any_sro_false. destruct (String.eqb (s_topology s) "fully-connected").
    + rewrite Hu in E1. exact E1.
    + destruct (contains "topo-indep" (s_updating s)); [|discriminate]. rewrite Hu in E1. exact E1.
  - reflexivity.
  - intros ->. cbn. split; reflexivity.
  - intros ->. reflexivity.
  - intros ->. reflexivity.
  - intros Hs. apply String.eqb_neq in Hs. rewrite Hs. repeat split.
Qed.
(** Nothing else is changed, in particular neither the network nor the signals. *)
Theorem C87_unchanged f a s s' a' : check_settings f a s = Ok (s', a') ->
  s_topology s' = s_topology s /\ s_sros s' = s_sros s /\ s_dur s' = s_dur s /\ s_signal s' = s_signal s /\ s_room s' = s_room s /\
  s_comp s' = s_comp s /\ s_start s' = s_start s /\
  sim_type (s_danse s') = sim_type (s_danse s) /\ dft_size (s_danse s') = dft_size (s_danse s) /\ hop (s_danse s') = hop (s_danse s) /\
  x_condition (s_exports s') = x_condition (s_exports s) /\
  (s_topology s = "fully-connected" -> s_updating s' = s_updating s /\ s_ssbc s' = s_ssbc s) /\
  (s_updating s' = s_updating s \/ s_updating s' = "topo-indep_" ++ s_updating s) /\
  (comp_strategy (s_danse s') = lower (comp_strategy (s_danse s)) \/ s_topology s = "fully-connected" /\ s_comp s = true /\ lower (comp_strategy (s_danse s)) = "network-wide").
Proof.
  intros H. destruct (check_inv _ _ _ _ _ H) as (p & p' & Ep & E1 & E2 & E3 & ->). destruct (C32_other_fields _ _ Ep) as (O1 & O2 & O3 & _ & _ & _ & _ & O4 & _ & O5 & _). unfold fully_connected in *.
  assert (T : sim_type p' = sim_type p /\ dft_size p' = dft_size p /\ hop p' = hop p) by (destruct (_ && _ && _) in E2; destruct E2 as [_ ->]; repeat split). destruct T as (T1 & T2 & T3).
  cbn [s_danse s_updating s_comp s_ssbc s_start s_topology s_sros s_dur s_exports s_room s_signal adjust_exports x_condition]. repeat (split; [congruence|]).
  split; [intros ->; split; reflexivity|]. split; [destruct (String.eqb (s_topology s) "fully-connected"); [left; reflexivity|]; destruct (contains "topo-indep" (s_updating s)); [left|right]; reflexivity|].
  destruct (String.eqb_spec (s_topology s) "fully-connected") as [Ht|Ht]; cbn [andb] in E2; [|left; destruct E2 as [_ ->]; exact O5].
  destruct (s_comp s); cbn [andb] in E2; [|left; destruct E2 as [_ ->]; exact O5].
  destruct (String.eqb_spec (comp_strategy p) "network-wide") as [Hn|Hn]; [right; repeat split; congruence|left; destruct E2 as [_ ->]; exact O5].
Qed.

(** The first of the answers that is 'y' or 'n'. *)
Inductive answered (b : bool) : list string -> list string -> Prop :=
| an_now a r : a = (if b then "y" else "n") -> answered b (a :: r) r
| an_skip a l r : a <> "y" -> a <> "n" -> answered b l r -> answered b (a :: l) r.
Lemma ask_spec b l r : ask l = Ok (b, r) <-> answered b l r.
Proof.
  split.
  - revert r. induction l as [|a l IH]; intros r H; [discriminate|]. cbn in H. destruct (String.eqb_spec a "y") as [->|N1]; [injection H as <- <-; constructor; reflexivity|].
    destruct (String.eqb_spec a "n") as [->|N2]; [injection H as <- <-; constructor; reflexivity|]. apply an_skip; auto.
  - induction 1 as [a r E|a l r N1 N2 _ IH]; cbn; [destruct b; subst a; reflexivity|]. destruct (String.eqb_spec a "y"); [contradiction|]. destruct (String.eqb_spec a "n"); [contradiction|exact IH].
Qed.
(** Apart from the norms, exactly what was asked for and makes sense is exported. *)
Theorem C87_exports f a s s' a' : check_settings f a s = Ok (s', a') ->
  (x_filters (s_exports s') = true <-> x_filters (s_exports s) = true /\ sim_type (s_danse s) <> "batch") /\
  (x_scene (s_exports s') = true <-> x_scene (s_exports s) = true /\ s_room s = true) /\
  (x_waveforms (s_exports s') = true <-> x_waveforms (s_exports s) = true /\ s_signal s = "from_file") /\
  (x_metrics (s_exports s') = true <-> x_metrics (s_exports s) = true /\ s_signal s = "from_file") /\
  (x_wav (s_exports s') = true <-> x_wav (s_exports s) = true /\ s_signal s = "from_file").
Proof.
  intros H. destruct (C87_unchanged _ _ _ _ _ H) as (_ & _ & _ & _ & _ & _ & _ & T & _). destruct (check_inv _ _ _ _ _ H) as (p & p' & _ & _ & _ & _ & ->).
  cbn [s_danse s_exports s_signal s_room adjust_exports x_filters x_scene x_waveforms x_metrics x_wav] in *. rewrite T.
  assert (B : forall (c : bool) (P : Prop) (x : bool), (c = true <-> P) -> ((if c then x else false) = true <-> x = true /\ P)) by (intros c P x E; destruct c; intuition congruence).
  split.
  - destruct (String.eqb_spec (sim_type (s_danse s)) "batch") as [E|E]; intuition congruence.
  - split; [apply B; reflexivity|]. split; [|split]; apply B, String.eqb_eq.
Qed.
(** Lines are read only if network-wide compensation is asked for in a fully connected
    network; only the answer 'y' goes on. *)
Theorem C87_question f a s s' a' : check_settings f a s = Ok (s', a') ->
  (s_topology s = "fully-connected" /\ s_comp s = true /\ lower (comp_strategy (s_danse s)) = "network-wide" -> answered true a a') /\
  (~ (s_topology s = "fully-connected" /\ s_comp s = true /\ lower (comp_strategy (s_danse s)) = "network-wide") -> a' = a).
Proof.
  intros H. destruct (check_inv _ _ _ _ _ H) as (p & p' & Ep & E1 & E2 & E3 & ->). destruct (C32_other_fields _ _ Ep) as (_ & _ & _ & _ & _ & _ & _ & _ & _ & O5 & _). rewrite O5 in E2. unfold fully_connected in E2. split.
  - intros (Q1 & Q2 & Q3). rewrite Q1, Q2, Q3 in E2. cbn in E2. apply ask_spec, E2.
  - intros N. destruct (String.eqb_spec (s_topology s) "fully-connected"), (s_comp s), (String.eqb_spec (lower (comp_strategy (s_danse s))) "network-wide"); cbn [andb] in E2; try apply (proj1 E2). exfalso. apply N. repeat split; assumption.
Qed.
Theorem C87_refused_answer f a r s : answered false a r ->
  s_topology s = "fully-connected" -> s_comp s = true -> lower (comp_strategy (s_danse s)) = "network-wide" ->
  forall s' a', check_settings f a s <> Ok (s', a').
Proof.
  intros Ha H1 H2 H3 s' a' H. destruct (C87_question _ _ _ _ _ H) as [Q _]. specialize (Q (Logic.conj H1 (Logic.conj H2 H3))). apply ask_spec in Q, Ha. congruence.
Qed.

(** Exactly which settings are accepted without a question. *)
Theorem C87_accepted_iff f a s : ~ (s_topology s = "fully-connected" /\ s_comp s = true /\ lower (comp_strategy (s_danse s)) = "network-wide") ->
  (exists s', check_settings f a s = Ok (s', a)) <->
  (exists p, post_init (s_danse s) = Ok p) /\ (s_updating s = "sim" -> forall x, In x (s_sros s) -> (x == 0)%Q) /\ check_start f (s_start s) (s_dur s) = Ok tt.
Proof.
  intros N. split.
  - intros (s' & H). destruct (check_inv _ _ _ _ _ H) as (p & p' & Ep & E1 & E2 & E3 & _). split; [exists p; exact Ep|]. split; [|exact E3]. intros Hu. apply any_sro_false. rewrite Hu in E1. exact E1.
  - intros ((p & Ep) & Hs & Hc). unfold check_settings. rewrite Ep. cbn [bind].
    assert (E1 : String.eqb (s_updating s) "sim" && any_sro (s_sros s) = false).
    { destruct (String.eqb_spec (s_updating s) "sim") as [E|E]; [|reflexivity]. cbn. destruct (any_sro (s_sros s)) eqn:Ea; [|reflexivity]. unfold any_sro in Ea. apply existsb_exists in Ea. destruct Ea as (x & Hx & Nx).
      rewrite (proj2 (Qeq_bool_iff x 0) (Hs E x Hx)) in Nx. discriminate. }
    rewrite E1. destruct (post_init_names _ _ Ep) as [Nt _]. assert (Ew : String.eqb (sim_type p) "batch_wola_estimation" = false) by (destruct Nt as [-> | ->]; reflexivity). rewrite Ew. cbn [andb bind].
    destruct (C32_other_fields _ _ Ep) as (_ & _ & _ & _ & _ & _ & _ & _ & _ & O5 & _). rewrite O5. unfold fully_connected.
    assert (E2 : String.eqb (s_topology s) "fully-connected" && s_comp s && String.eqb (lower (comp_strategy (s_danse s))) "network-wide" = false).
    { destruct (String.eqb_spec (s_topology s) "fully-connected"), (s_comp s), (String.eqb_spec (lower (comp_strategy (s_danse s))) "network-wide"); cbn; try reflexivity. exfalso. apply N. repeat split; assumption. }
    rewrite E2. cbn [bind]. rewrite Hc. cbn [bind]. eexists. reflexivity.
Qed.

(** Loading saved settings checks them again: nothing changes and no question is asked. *)
Theorem C87_loaded_again f a s s' a' : (0 < hop (s_danse s))%Z -> check_settings f a s = Ok (s', a') -> forall b, check_settings f b s' = Ok (s', b).
Proof.
  intros Hh H b. destruct (check_inv _ _ _ _ _ H) as (p & p' & Ep & E1 & E2 & E3 & Es). destruct (C32_other_fields _ _ Ep) as (_ & _ & Oh & _).
  assert (I : post_init p' = Ok p' /\ sim_type p' = sim_type p).
  { assert (I0 : forall c, c = "network-wide" \/ c = "node-specific" -> post_init (with_strategy p c) = Ok (with_strategy p c)).
    { intros c Hc. clear E1 E2 E3 Es H. unfold post_init in Ep. apply bind_ok in Ep. destruct Ep as ([] & A1 & Ep). apply bind_ok in Ep. destruct Ep as ([] & A2 & Ep). apply bind_ok in Ep. destruct Ep as ([] & A3 & Ep). apply bind_ok in Ep. destruct Ep as (l & A4 & Ep).
      destruct (negb (one_of (estimate_sros (s_danse s)) _)) eqn:A5; [discriminate|]. destruct (negb (one_of (sim_type (s_danse s)) _)) eqn:A6; [discriminate|]. destruct (negb (one_of (lower _) _)) eqn:A7; [discriminate|]. injection Ep as <-.
      unfold post_init, with_strategy. cbn [dft_size ovlp win_ana win_syn btype blen estimate_sros no_relax t_ext sim_type comp_strategy]. rewrite A1, A2, A3, A5, A6. cbn [bind]. unfold hop in *. cbn [dft_size ovlp] in *.
      assert (L : bc_length (btype (s_danse s)) l (trunc (inject_Z (dft_size (s_danse s)) * (1 - ovlp (s_danse s)))) = Ok l).
      { unfold bc_length in *. destruct (String.eqb _ "wholeChunk"); [exact A4|]. destruct (String.eqb _ "fewSamples"); [|reflexivity]. destruct (blen (s_danse s)) as [l0|].
        - destruct (Z.gtb_spec l0 (trunc (inject_Z (dft_size (s_danse s)) * (1 - ovlp (s_danse s))))) as [G|G]; [discriminate|]. destruct (Z.eqb_spec l0 0) as [G0|G0]; [discriminate|]. destruct (negb _) eqn:G2 in A4; [discriminate|]. injection A4 as <-.
          destruct (Z.gtb_spec l0 (trunc (inject_Z (dft_size (s_danse s)) * (1 - ovlp (s_danse s))))) as [G'|G']; [lia|]. destruct (Z.eqb_spec l0 0); [contradiction|]. rewrite G2. reflexivity.
        - injection A4 as <-. destruct (Z.gtb_spec 1 (trunc (inject_Z (dft_size (s_danse s)) * (1 - ovlp (s_danse s))))) as [G|G]; [lia|]. cbn [Z.eqb]. rewrite Z.mod_1_r. reflexivity. }
      rewrite L. cbn [bind]. assert (Lc : lower c = c /\ one_of c ["network-wide"; "node-specific"] = true) by (destruct Hc as [-> | ->]; split; reflexivity). rewrite (proj1 Lc), (proj2 Lc). cbn [negb].
      destruct (no_relax (s_danse s)); reflexivity. }
    destruct (post_init_names _ _ Ep) as [_ Ns]. destruct (_ && _ && _) in E2; destruct E2 as [_ ->].
    - split; [apply I0; right; reflexivity|reflexivity].
    - split; [|reflexivity]. specialize (I0 _ Ns). replace (with_strategy p (comp_strategy p)) with p in I0 by (destruct p; reflexivity). exact I0. }
  destruct I as [I It]. assert (C := C87_consistent _ _ _ _ _ H). assert (Ea : s_danse s' = p') by (rewrite Es; reflexivity).
  assert (Nq : ~ (s_topology s' = "fully-connected" /\ s_comp s' = true /\ lower (comp_strategy (s_danse s')) = "network-wide")).
  { intros (Q1 & Q2 & Q3). rewrite (ok_compensation _ C Q1 Q2) in Q3. discriminate. }
  assert (Hx : exists s2, check_settings f b s' = Ok (s2, b)).
  { apply C87_accepted_iff; [exact Nq|]. split; [exists p'; rewrite Ea; exact I|]. split; [apply (ok_offsets _ C)|]. rewrite Es. exact E3. }
  destruct Hx as (s2 & Hx). rewrite Hx. do 2 f_equal. destruct (check_inv _ _ _ _ _ Hx) as (q & q' & Eq & _ & F2 & _ & Es2). rewrite Ea, I in Eq. injection Eq as <-.
  assert (Eq' : q' = p').
  { destruct (_ && _ && _) eqn:E in F2; destruct F2 as [_ F2]; [|exact F2]. exfalso. apply Nq. apply andb_prop in E. destruct E as [E E6]. apply andb_prop in E. destruct E as [E4 E5]. unfold fully_connected in E4. apply String.eqb_eq in E4, E6. rewrite Ea, E6. repeat split; assumption. }
  subst q'. rewrite Es2. clear Es2 Hx Nq C Ea I F2. rewrite Es. unfold fully_connected, adjust_exports. cbn [s_danse s_updating s_comp s_ssbc s_save_cond s_start s_topology s_sros s_dur s_signal s_room s_exports x_condition x_filters x_norms x_scene x_waveforms x_metrics x_wav].
  f_equal.
  - destruct (String.eqb (s_topology s) "fully-connected"); [reflexivity|]. destruct (contains "topo-indep" (s_updating s)) eqn:E; [rewrite E; reflexivity|]. reflexivity.
  - destruct (String.eqb (s_topology s) "fully-connected"); reflexivity.
  - destruct (String.eqb (sim_type p') "batch"), (contains "online" (sim_type p')), (s_room s), (String.eqb (s_signal s) "from_file"); reflexivity.
Qed.

(** Metrics computed from some time on: refused if that is after the end of the signals.
    Durations are strings without letters. *)
Definition no_letters (d : string) : Prop := forall c, In c (list_ascii_of_string d) -> (N_of_ascii c < 65)%N.
Lemma length_app : forall a b, String.length (a ++ b) = (String.length a + String.length b)%nat.
Proof. induction a as [|c a IH]; intros b; cbn; [reflexivity|]. now rewrite IH. Qed.
Lemma substring_app : forall d r, substring 0 (String.length d) (d ++ r) = d.
Proof. induction d as [|c d IH]; intros r; cbn; [destruct r; reflexivity|]. now rewrite IH. Qed.
Lemma prefix_in : forall sub s, prefix sub s = true -> forall c, In c (list_ascii_of_string sub) -> In c (list_ascii_of_string s).
Proof. induction sub as [|x sub IH]; intros [|y s] H c Hc; cbn in *; try contradiction; try discriminate. destruct (ascii_dec x y) as [<-|]; [|discriminate]. destruct Hc as [<-|Hc]; [left; reflexivity|right; eapply IH; eassumption]. Qed.
Lemma contains_in sub s c : contains sub s = true -> In c (list_ascii_of_string sub) -> In c (list_ascii_of_string s).
Proof.
  intros H Hc. apply contains_split in H. destruct H as (a & b & ->). assert (L : forall a b, list_ascii_of_string (a ++ b) = (list_ascii_of_string a ++ list_ascii_of_string b)%list) by (induction a0 as [|y a0 IH]; intros b0; cbn; [reflexivity|now rewrite IH]).
  rewrite !L, !in_app_iff. right. left. exact Hc.
Qed.
Lemma ascii_app : forall a b, list_ascii_of_string (a ++ b) = (list_ascii_of_string a ++ list_ascii_of_string b)%list.
Proof. induction a as [|y a IH]; intros b; cbn; [reflexivity|now rewrite IH]. Qed.
Lemma no_char c l : In c (list_ascii_of_string l) -> ~ In c (list_ascii_of_string l) -> False. Proof. auto. Qed.
Lemma not_in_after d u c : no_letters d -> (65 <= N_of_ascii c)%N -> ~ In c (list_ascii_of_string "after_") -> ~ In c (list_ascii_of_string u) -> ~ In c (list_ascii_of_string ("after_" ++ d ++ u)).
Proof. intros Hd Hc N1 N2 I. rewrite !ascii_app, !in_app_iff in I. destruct I as [I|[I|I]]; [exact (N1 I)| |exact (N2 I)]. specialize (Hd c I). lia. Qed.
Lemma contains_false sub s c : In c (list_ascii_of_string sub) -> ~ In c (list_ascii_of_string s) -> contains sub s = false.
Proof. intros H1 H2. destruct (contains sub s) eqn:E; [|reflexivity]. exfalso. apply H2. eapply contains_in; eassumption. Qed.
Lemma index_app sub : forall a b, exists n, String.index 0 sub (a ++ sub ++ b) = Some n.
Proof.
  assert (P : forall x y, prefix x (x ++ y) = true) by (induction x as [|c x IH]; intros y; [destruct y; reflexivity|]; cbn; destruct (ascii_dec c c); [apply IH|congruence]).
  assert (G : forall s, prefix sub s = true -> exists n, String.index 0 sub s = Some n).
  { intros s H. destruct s; cbn in *; [destruct sub; [eexists; reflexivity|discriminate]|]. rewrite H. eexists. reflexivity. }
  induction a as [|c a IH]; intros b; [exact (G _ (P sub b))|].
  change (exists n, (if prefix sub (String c (a ++ sub ++ b)) then Some O else match String.index 0 sub (a ++ sub ++ b) with Some m => Some (S m) | None => None end) = Some n). destruct (prefix sub (String c (a ++ sub ++ b))); [eexists; reflexivity|]. destruct (IH b) as (n & ->). eexists. reflexivity.
Qed.
Lemma contains_app sub a b : contains sub (a ++ sub ++ b) = true.
Proof. unfold contains. destruct (index_app sub a b) as (n & ->). reflexivity. Qed.
Lemma app_nil_s : forall s, s ++ "" = s. Proof. induction s; cbn; congruence. Qed.
Theorem C87_start_seconds f dur d x : no_letters d -> f d = Some x ->
  (check_start f ("after_" ++ d ++ "s") dur = Ok tt <-> (x <= dur)%Q) /\ (check_start f ("after_" ++ d ++ "ms") dur = Ok tt <-> (x / 1000 <= dur)%Q).
Proof.
  intros Hd Hf. unfold check_start.
  assert (A : forall u, contains "after" ("after_" ++ d ++ u) = true) by (intros u; exact (contains_app "after" "" ("_" ++ d ++ u))).
  rewrite !A. rewrite (contains_false "beginning" ("after_" ++ d ++ "s") "b"%char) by ((left; reflexivity) || (apply not_in_after; [exact Hd|cbn; lia|cbn; intuition discriminate|cbn; intuition discriminate])).
  rewrite (contains_false "beginning" ("after_" ++ d ++ "ms") "b"%char) by ((left; reflexivity) || (apply not_in_after; [exact Hd|cbn; lia|cbn; intuition discriminate|cbn; intuition discriminate])).
  cbn [andb negb].
  rewrite (contains_false "ms" ("after_" ++ d ++ "s") "m"%char) by ((left; reflexivity) || (apply not_in_after; [exact Hd|cbn; lia|cbn; intuition discriminate|cbn; intuition discriminate])).
  assert (M : contains "ms" ("after_" ++ d ++ "ms") = true) by (generalize (contains_app "ms" ("after_" ++ d) ""); cbn; trivial).
  assert (S : contains "s" ("after_" ++ d ++ "s") = true) by (generalize (contains_app "s" ("after_" ++ d) ""); cbn; trivial).
  rewrite M, S, !length_app. cbn [String.length]. replace (6 + (String.length d + 1) - 7)%nat with (String.length d) by lia. replace (6 + (String.length d + 2) - 8)%nat with (String.length d) by lia.
  change (substring 6 (String.length d) ("after_" ++ d ++ "s")) with (substring 0 (String.length d) (d ++ "s")). change (substring 6 (String.length d) ("after_" ++ d ++ "ms")) with (substring 0 (String.length d) (d ++ "ms")).
  rewrite !substring_app, Hf. cbn [bind].
  assert (Q : forall y, (if Qle_bool y dur then Ok tt else Err ValueError) = Ok tt <-> (y <= dur)%Q) by (intros y; rewrite <- Qle_bool_iff; destruct (Qle_bool y dur); split; congruence).
  split; apply Q.
Qed.
(** Without a unit the check itself fails. *)
Theorem C87_start_unit f dur d : no_letters d -> check_start f ("after_" ++ d) dur = Err UnboundLocalError.
Proof.
  intros Hd. unfold check_start. rewrite <- (app_nil_s d). rewrite (contains_app "after" "" ("_" ++ d ++ "") : contains "after" ("after_" ++ d ++ "") = true).
  rewrite (contains_false "beginning" ("after_" ++ d ++ "") "b"%char) by ((left; reflexivity) || (apply not_in_after; [exact Hd|cbn; lia|cbn; intuition discriminate|cbn; intuition])).
  rewrite (contains_false "ms" ("after_" ++ d ++ "") "s"%char) by ((right; left; reflexivity) || (apply not_in_after; [exact Hd|cbn; lia|cbn; intuition discriminate|cbn; intuition])).
  rewrite (contains_false "s" ("after_" ++ d ++ "") "s"%char) by ((left; reflexivity) || (apply not_in_after; [exact Hd|cbn; lia|cbn; intuition discriminate|cbn; intuition])). reflexivity.
Qed.

Definition exports0 := mkX true true true true true true true.
Definition settings0 (up top : string) (comp : bool) (strategy type : string) (sros : list Q) : settings :=
  mkS (mkP 8 (1 # 2) "sqrthann" "rect" "fewSamples" None "Oracle" false 1 type strategy) up comp true false "after_5s" top sros 10 "from_file" true exports0.
Definition digits (s : string) : option Q := if String.eqb s "5" then Some 5%Q else None.
(** As the code stands, simultaneous updating with sampling rate offsets is accepted if the
    name says that the network is not fully connected. *)
Theorem C87_simultaneous_refuted : exists s s', s_updating s = "topo-indep_sim" /\ s_topology s = "ad-hoc" /\ any_sro (s_sros s) = true /\ check_settings digits [] s = Ok (s', []) /\ s_updating s' = "topo-indep_sim".
Proof. exists (settings0 "topo-indep_sim" "ad-hoc" false "node-specific" "online" [0; 100]%Q). eexists. repeat split. Qed.
(** The question about batch runs with sampling rate offsets is never asked. *)
Theorem C87_batch_offsets_refuted : exists s s', sim_type (s_danse s) = "batch" /\ any_sro (s_sros s) = true /\ check_settings digits [] s = Ok (s', []) /\ sim_type (s_danse s') = "batch" /\ s_sros s' = s_sros s.
Proof. exists (settings0 "seq" "fully-connected" false "node-specific" "batch" [0; 100]%Q). eexists. repeat split. Qed.
Theorem C87_batch_question f a s : sim_type (s_danse s) = "batch_wola_estimation" -> forall s' a', check_settings f a s <> Ok (s', a').
Proof.
  intros Ht s' a' H. destruct (check_inv _ _ _ _ _ H) as (p & p' & Ep & _). destruct (post_init_names _ _ Ep) as [Nt _]. destruct (C32_other_fields _ _ Ep) as (_ & _ & _ & _ & _ & _ & _ & O4 & _). rewrite O4, Ht in Nt. destruct Nt; discriminate.
Qed.
(** A fully connected network keeps the updating of a network that is not. *)
Theorem C87_fully_connected_refuted : exists s s', s_topology s = "fully-connected" /\ check_settings digits [] s = Ok (s', []) /\ contains "topo-indep" (s_updating s') = true.
Proof. exists (settings0 "topo-indep_seq" "fully-connected" false "node-specific" "online" []%Q). eexists. repeat split. Qed.
(** With a hop of zero, settings that were accepted are refused when they are loaded. *)
Theorem C87_loaded_hop_zero_refuted : exists s s', check_settings digits [] s = Ok (s', []) /\ hop (s_danse s) = 0%Z /\ check_settings digits [] s' = Err ValueError.
Proof. exists (mkS (mkP 8 1 "sqrthann" "rect" "fewSamples" None "Oracle" false 1 "online" "node-specific") "seq" false true false "after_5s" "fully-connected" [] 10 "from_file" true exports0). eexists. repeat split. Qed.

Example C87_ex_switched : exists s', check_settings digits [] (settings0 "seq" "ad-hoc" true "Network-Wide" "online" [0; 100]%Q) = Ok (s', []) /\
  s_updating s' = "topo-indep_seq" /\ s_ssbc s' = false /\ comp_strategy (s_danse s') = "network-wide".
Proof. eexists. repeat split. Qed.
Example C87_ex_question : exists s', check_settings digits ["maybe"; "y"; "n"] (settings0 "seq" "fully-connected" true "network-wide" "online" [0; 100]%Q) = Ok (s', ["n"]) /\ comp_strategy (s_danse s') = "node-specific".
Proof. eexists. repeat split. Qed.
Example C87_ex_refused : check_settings digits ["n"] (settings0 "seq" "fully-connected" true "network-wide" "online" []%Q) = Err ValueError /\
  check_settings digits [] (settings0 "sim" "fully-connected" false "node-specific" "online" [0; 100]%Q) = Err ValueError /\
  check_start digits "after_5s" 4 = Err ValueError /\ check_start digits "after_5ms" 4 = Ok tt.
Proof. repeat split. Qed.

Print Assumptions C87_consistent.
Print Assumptions C87_unchanged.
Print Assumptions C87_exports.
Print Assumptions C87_question.
Print Assumptions C87_refused_answer.
Print Assumptions C87_accepted_iff.
Print Assumptions C87_loaded_again.
Print Assumptions C87_start_seconds.
Print Assumptions C87_start_unit.
Print Assumptions C87_simultaneous_refuted.
Print Assumptions C87_batch_offsets_refuted.
Print Assumptions C87_batch_question.
Print Assumptions C87_fully_connected_refuted.
Print Assumptions C87_loaded_hop_zero_refuted.
