(** Facts about predefined layouts (C92). *)
From Verif Require Import Base BaseFacts SigGen SigGenSpec SigGenFacts Prep Predef PredefSpec.
From Coq Require Import QArith.
Open Scope nat_scope.

Definition smallest (x : Q) (l : list Q) : Q := fold_right (fun a b => if Qle_bool a b then a else b) x l.
Lemma smallest_in x l : In (smallest x l) (x :: l).
Proof. induction l as [|a l IH]; [now left|]. cbn [smallest fold_right]. fold (smallest x l). destruct (Qle_bool a _); [right; now left|]. destruct IH as [IH|IH]; [left; exact IH|right; right; exact IH]. Qed.
Lemma smallest_le x l y : In y (x :: l) -> (smallest x l <= y)%Q.
Proof.
  revert y. induction l as [|a l IH]; intros y Hy; [destruct Hy as [->|[]]; apply Qle_refl|]. cbn [smallest fold_right]. fold (smallest x l).
  destruct (Qle_bool a (smallest x l)) eqn:E.
  - apply Qle_bool_iff in E. destruct Hy as [Hy|[Hy|Hy]]; [|subst; apply Qle_refl|]; (eapply Qle_trans; [exact E|]); apply IH; [now left|now right].
  - assert (L : (smallest x l <= a)%Q). { apply Qlt_le_weak, Qnot_le_lt. intros H. apply Qle_bool_iff in H. congruence. }
    destruct Hy as [Hy|[Hy|Hy]]; [apply IH; now left|subst; exact L|apply IH; now right].
Qed.
Lemma wide_iff rd d : wide rd d <-> match rd with [] => False | x :: l => Qle_bool (smallest x l / 3) d = false end.
Proof.
  destruct rd as [|x l]; [split; [intros [H _]; congruence|tauto]|]. split.
  - intros [_ H]. destruct (Qle_bool _ _) eqn:E; [|reflexivity]. apply Qle_bool_iff in E. specialize (H _ (smallest_in x l)). exfalso. eapply Qlt_not_le; eassumption.
  - intros E. split; [discriminate|]. intros y Hy. apply Qnot_le_lt. intros H.
    assert (Qle_bool (smallest x l / 3) d = true); [|congruence]. apply Qle_bool_iff. eapply Qle_trans; [|exact H]. apply Qmult_le_compat_r; [now apply smallest_le|discriminate].
Qed.
Lemma dim_check_iff v n : (exists v', dim_check v n = Ok v') <-> fits v n.
Proof.
  unfold dim_check, fits. destruct (Nat.eqb_spec (length v) n) as [E|E]; [split; [now left|eauto]|]. destruct v as [|a v]; [split; [right; intros ? ? []|eauto]|].
  destruct (forallb _ _) eqn:F.
  - split; [|eauto]. intros _. right. rewrite forallb_forall in F. intros x y Hx Hy. apply F, Qeq_bool_eq in Hx. apply F, Qeq_bool_eq in Hy. now rewrite Hx, Hy.
  - split; [intros [? H]; discriminate|]. intros [H|H]; [contradiction|]. assert (forallb (fun w => Qeq_bool w a) (a :: v) = true); [|congruence].
    apply forallb_forall. intros w Hw. apply Qeq_eq_bool, H; [exact Hw|now left].
Qed.
Lemma dim_check_length v n v' : dim_check v n = Ok v' -> length v' = n.
Proof.
  unfold dim_check. destruct (Nat.eqb_spec (length v) n) as [E|E]; [intros H; injection H as <-; exact E|]. destruct v as [|a v]; [intros H; injection H as <-; apply repeat_length|].
  destruct (forallb _ _); [intros H; injection H as <-; apply repeat_length|discriminate].
Qed.

Definition network_of (p : wparams) (ly : layout) : list nat := match wp_random p with Some r => r | None => ly_m ly end.
Lemma align_ok p ly p' : align p ly = Ok p' ->
  wp_rd p' = ly_rd ly /\ wp_sensors p' = network_of p ly /\ wp_map p' = sensor_map (network_of p ly) /\ wp_desired p' = length (ly_targets ly) /\ wp_noise p' = length (ly_interferers ly) /\
  length (wp_sro p') = length (network_of p ly) /\ length (wp_added p') = length (network_of p ly) /\ wp_fs_nodes p' = map (fun s => wp_fs p * (1 + s * (1 # 1000000)))%Q (wp_sro p') /\
  dim_check (wp_sro p) (length (network_of p ly)) = Ok (wp_sro p').
Proof.
  unfold align, reinit, post_init, network_of. cbn [wp_rd wp_sensors wp_desired wp_noise wp_min_dist wp_sro wp_added wp_fs wp_desired_files wp_noise_files wp_random].
  set (ms := match wp_random p with Some r => r | None => ly_m ly end).
  destruct (ly_rd ly) as [|x rd]; [discriminate|]. destruct (Qle_bool _ _); [discriminate|]. cbn [bind].
  destruct (wp_noise_files p) as [nf|nf]; [|destruct (nf <? _); [discriminate|]]; cbn [bind];
    (destruct (dim_check (wp_added p) (length ms)) as [ad|] eqn:Ea; [|discriminate]; cbn [bind]; destruct (dim_check (wp_sro p) (length ms)) as [sr|] eqn:Es; [|discriminate]; cbn [bind]; rewrite Nat.eqb_refl; cbn [bind fst snd wp_desired_files wp_desired wp_noise_files wp_noise];
     destruct (_ <? _); [discriminate|]; destruct (_ <? _); [discriminate|]; intros H; assert (Ep : p' = mkWP (x :: rd) ms (length (ly_targets ly)) (length (ly_interferers ly)) (wp_min_dist p) sr ad (wp_fs p) (map (fun s => wp_fs p * (1 + s * (1 # 1000000)))%Q sr) (sensor_map ms) (wp_desired_files p) _ (wp_random p)) by (injection H as <-; reflexivity);
     rewrite Ep; cbn; repeat split; try (now apply dim_check_length in Ea); now apply dim_check_length in Es).
Qed.
Lemma align_iff p ly : (exists p', align p ly = Ok p') <-> wide (ly_rd ly) (wp_min_dist p) /\ fits (wp_sro p) (length (network_of p ly)) /\ fits (wp_added p) (length (network_of p ly)) /\ enough_signals p ly.
Proof.
  rewrite wide_iff, <- !dim_check_iff. unfold enough_signals, align, reinit, post_init, network_of. cbn [wp_rd wp_sensors wp_desired wp_noise wp_min_dist wp_sro wp_added wp_fs wp_desired_files wp_noise_files wp_random].
  set (ms := match wp_random p with Some r => r | None => ly_m ly end).
  destruct (ly_rd ly) as [|x rd]; [split; [intros [? H]; discriminate|tauto]|]. change (fold_right _ x rd) with (smallest x rd).
  destruct (Qle_bool _ _); [split; [intros [? H]; discriminate|intros [H _]; discriminate]|]. cbn [bind].
  destruct (wp_noise_files p) as [nf|nf].
  - cbn [bind]. destruct (dim_check (wp_added p) (length ms)) as [ad|]; cbn [bind]; [|split; [intros [? H]; discriminate|intros (_ & _ & [? H] & _); discriminate]].
    destruct (dim_check (wp_sro p) (length ms)) as [sr|]; cbn [bind]; [|split; [intros [? H]; discriminate|intros (_ & [? H] & _); discriminate]]. rewrite Nat.eqb_refl. cbn [bind fst snd wp_desired_files wp_desired wp_noise_files wp_noise n_files].
    destruct (Nat.ltb_spec (wp_desired_files p) (length (ly_targets ly))); [split; [intros [? HH]; discriminate|intros (_ & _ & _ & HH & _); lia]|].
    destruct (Nat.ltb_spec nf (length (ly_interferers ly))); [split; [intros [? HH]; discriminate|intros (_ & _ & _ & _ & HH); lia]|]. split; [intros _; repeat split; eauto|eauto].
  - destruct (Nat.ltb_spec nf (length (ly_interferers ly))); cbn [bind]; [split; [intros [? HH]; discriminate|intros (_ & _ & _ & _ & HH); lia]|].
    destruct (dim_check (wp_added p) (length ms)) as [ad|]; cbn [bind]; [|split; [intros [? HH]; discriminate|intros (_ & _ & [? HH] & _); discriminate]].
    destruct (dim_check (wp_sro p) (length ms)) as [sr|]; cbn [bind]; [|split; [intros [? HH]; discriminate|intros (_ & [? HH] & _); discriminate]]. rewrite Nat.eqb_refl. cbn [bind fst snd wp_desired_files wp_desired wp_noise_files wp_noise n_files].
    destruct (Nat.ltb_spec (wp_desired_files p) (length (ly_targets ly))); [split; [intros [? HH]; discriminate|intros (_ & _ & _ & HH & _); lia]|].
    rewrite Nat.ltb_irrefl. split; [intros _; repeat split; eauto|eauto].
Qed.

Lemma same_dims (l : list Q) : existsb (fun q => negb (Qeq_bool (fst q) (snd q))) (combine l l) = false.
Proof. induction l as [|a l IH]; [reflexivity|]. cbn [combine existsb fst snd]. rewrite IH. replace (Qeq_bool a a) with true; [reflexivity|]. symmetry. apply Qeq_eq_bool, Qeq_refl. Qed.
Lemma predefined_eq p ly p' : align p ly = Ok p' -> predefined p ly = (do c <- concatenate (blocks (ly_m ly) (ly_sensors ly)); Ok (p', mkRoom (wp_rd p) c (ly_targets ly) (ly_interferers ly))).
Proof. intros E. unfold predefined. rewrite E. cbn [bind]. destruct (align_ok _ _ _ E) as (-> & _). now rewrite same_dims. Qed.
Lemma block_eq ms (c : list pos) k : k < length ms -> slice (list_sum (firstn k ms)) (list_sum (firstn (S k) ms)) c = firstn (nth k ms 0) (skipn (before ms k) c).
Proof.
  intros Hk. unfold slice, before. f_equal. assert (E : list_sum (firstn (S k) ms) = list_sum (firstn k ms) + nth k ms 0); [|lia].
  revert k Hk. induction ms as [|m ms IH]; intros k Hk; cbn [length] in Hk; [lia|]. destruct k as [|k]; [cbn; lia|]. cbn [firstn list_sum fold_right nth]. cbn [firstn] in IH. specialize (IH k ltac:(lia)). unfold list_sum in *. rewrite IH. lia.
Qed.
Lemma blocks_eq ms c : blocks ms c = map (fun k => firstn (nth k ms 0) (skipn (before ms k) c)) (seq 0 (length ms)).
Proof. unfold blocks. apply map_ext_in. intros k Hk. apply in_seq in Hk. apply block_eq. lia. Qed.
Lemma concatenate_complete ly : complete_layout ly -> concatenate (blocks (ly_m ly) (ly_sensors ly)) = Ok (ly_sensors ly).
Proof.
  intros (H1 & H2 & H3). rewrite blocks_eq. unfold concatenate. destruct (map _ (seq 0 (length (ly_m ly)))) as [|b bs] eqn:E.
  - apply map_eq_nil in E. destruct (ly_m ly); [contradiction|discriminate].
  - rewrite <- E. replace (existsb _ _) with false; [f_equal; now apply blocks_concat|]. symmetry. apply not_true_is_false. intros F. apply existsb_exists in F. destruct F as (x & Hx & F). apply Nat.eqb_eq in F.
    apply in_map_iff in Hx. destruct Hx as (k & <- & Hk). apply in_seq in Hk. rewrite firstn_length, skipn_length in F. pose proof (before_le (ly_m ly) k ltac:(lia)).
    rewrite Forall_forall in H2. specialize (H2 (nth k (ly_m ly) 0) ltac:(apply nth_In; lia)). lia.
Qed.
