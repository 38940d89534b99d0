(** Pruned networks are minimum spanning trees, unless linked nodes are at the same place. *)
From Verif Require Import Base BaseFacts Buffers BufFacts Tree TreeSpec TreeFacts TreeFacts2 Prune PruneSpec PruneFacts PruneFacts2.
From Coq Require Import Reals Lra Sorted.
Local Open Scope nat_scope.

(** ** Distances *)
Definition sqd (p : R * R) : R := ((fst p - snd p) * (fst p - snd p))%R.
Definition sqsum (l : list (R * R)) : R := fold_right Rplus 0%R (map sqd l).
Lemma sqd_pos p : (0 <= sqd p)%R.
Proof. unfold sqd. apply Rle_0_sqr. Qed.
Lemma sqsum_pos l : (0 <= sqsum l)%R.
Proof. unfold sqsum. induction l as [|p l IH]; cbn [map fold_right]; [lra|]. pose proof (sqd_pos p). lra. Qed.
Lemma euclid_sum a b : euclid a b = sqrt (sqsum (combine a b)).
Proof. reflexivity. Qed.
Lemma euclid_sym a b : euclid a b = euclid b a.
Proof.
  rewrite !euclid_sum. f_equal. revert b. induction a as [|x a IH]; intros b; [now destruct b|]. destruct b as [|z b]; [reflexivity|].
  cbn [combine]. unfold sqsum. cbn [map fold_right]. fold (sqsum (combine a b)) (sqsum (combine b a)). rewrite IH. unfold sqd. cbn [fst snd]. ring.
Qed.
Lemma euclid_zero a b : length a = length b -> euclid a b = 0%R -> a = b.
Proof.
  rewrite euclid_sum. intros L H. apply sqrt_eq_0 in H; [|apply sqsum_pos]. revert b L H. induction a as [|x a IH]; intros b L H; destruct b as [|z b]; try discriminate; [reflexivity|].
  unfold sqsum in H. cbn [combine map fold_right] in H. fold (sqsum (combine a b)) in H. pose proof (sqsum_pos (combine a b)). pose proof (sqd_pos (x, z)).
  assert (E1 : sqsum (combine a b) = 0%R) by lra. assert (E2 : sqd (x, z) = 0%R) by lra. f_equal; [|apply IH; [now injection L|exact E1]].
  unfold sqd in E2. cbn [fst snd] in E2. apply Rmult_integral in E2. lra.
Qed.
Lemma euclid_self a : euclid a a = 0%R.
Proof.
  rewrite euclid_sum. replace (sqsum (combine a a)) with 0%R; [apply sqrt_0|]. unfold sqsum. induction a as [|x a IH]; cbn [combine map fold_right]; [reflexivity|]. rewrite <- IH. unfold sqd. cbn [fst snd]. ring.
Qed.
Lemma weight_sym pos x y : link_weight pos x y = link_weight pos y x.
Proof. unfold link_weight. destruct (all_same_position pos); [reflexivity|apply euclid_sym]. Qed.
Lemma weight_pos pos x y : (0 <= link_weight pos x y)%R.
Proof. unfold link_weight. destruct (all_same_position pos); [lra|rewrite euclid_sum; apply sqrt_pos]. Qed.
Lemma weight_places n A pos x y : places n A pos -> x < n -> y < n -> x <> y -> A x y = true \/ A y x = true -> (0 < link_weight pos x y)%R.
Proof.
  intros [H|H] Hx Hy Hne HA.
  - unfold link_weight. rewrite H. lra.
  - pose proof (weight_pos pos x y) as P. destruct P as [P|P]; [exact P|exfalso]. unfold link_weight in P. destruct (all_same_position pos); [lra|].
    destruct HA as [HA|HA].
    + destruct (H x y Hx Hy Hne HA) as [L N]. apply N. now apply euclid_zero.
    + destruct (H y x Hy Hx (not_eq_sym Hne) HA) as [L N]. apply N. apply euclid_zero; [exact L|]. now rewrite euclid_sym.
Qed.

(** ** Neighbour lists *)
Lemma is_link_iff es k q : is_link es k q = true <-> link es k q.
Proof.
  unfold is_link, link. rewrite existsb_exists. split.
  - intros ((a & b) & H & E). cbn [fst snd] in E. apply orb_true_iff in E. rewrite !andb_true_iff, !Nat.eqb_eq in E. destruct E as [[-> ->]|[-> ->]]; auto.
  - intros [H|H]; [exists (k, q)|exists (q, k)]; (split; [exact H|]); cbn [fst snd]; rewrite !Nat.eqb_refl; cbn; [reflexivity|apply orb_true_r].
Qed.
Lemma nbrs_nth n wt es k : k < n -> nth k (pruned_neighbours n wt es) [] = filter (fun q => is_link es q k && if Rlt_dec 0 (wt q k) then true else false) (seq 0 n).
Proof.
  intros Hk. unfold pruned_neighbours. rewrite (nth_indep _ [] (filter (fun q => is_link es q 0 && if Rlt_dec 0 (wt q 0) then true else false) (seq 0 n))) by (now rewrite map_length, seq_length).
  rewrite (map_nth (fun k => filter (fun q => is_link es q k && if Rlt_dec 0 (wt q k) then true else false) (seq 0 n))). now rewrite seq_nth.
Qed.
Lemma nbrs_In n wt es k q : k < n -> In q (nth k (pruned_neighbours n wt es) []) <-> q < n /\ link es k q /\ (0 < wt q k)%R.
Proof.
  intros Hk. rewrite (nbrs_nth n wt es k Hk), filter_In, in_seq, andb_true_iff, is_link_iff. destruct (Rlt_dec 0 (wt q k)); split; intros H; repeat split; try tauto; try lia; try (apply link_sym; tauto).
Qed.
Lemma nbrs_length n wt es : length (pruned_neighbours n wt es) = n.
Proof. unfold pruned_neighbours. now rewrite map_length, seq_length. Qed.
Lemma nbrs_NoDup n wt es k : k < n -> NoDup (nth k (pruned_neighbours n wt es) []).
Proof. intros Hk. rewrite (nbrs_nth n wt es k Hk). apply NoDup_filter, seq_NoDup. Qed.

(** ** The links of the pruned network are those of the spanning tree *)
Definition norm (e : nat * nat) : nat * nat := if fst e <? snd e then e else (snd e, fst e).
Lemma grown_norm E V : grown E V -> NoDup (map norm E).
Proof.
  induction 1 as [u|E V u v G IH Hu Hv]; cbn [map]; [constructor|]. constructor; [|exact IH]. intros H. apply in_map_iff in H. destruct H as ((a & b) & H & I).
  destruct (grown_link E V a b G (or_introl I)) as (Ha & Hb & _). unfold norm in H. cbn [fst snd] in H.
  destruct (a <? b), (u <? v); injection H as E1 E2; subst; contradiction.
Qed.
Lemma norm_In E V a b : grown E V -> (In (a, b) (map norm E) <-> a < b /\ link E a b).
Proof.
  intros G. rewrite in_map_iff. split.
  - intros ((x & z) & H & I). destruct (grown_link E V x z G (or_introl I)) as (_ & _ & N). unfold norm in H. cbn [fst snd] in H.
    destruct (Nat.ltb_spec x z); injection H as <- <-; (split; [lia|]); [now left|now right].
  - intros (L & [I|I]); [exists (a, b)|exists (b, a)]; (split; [|exact I]); unfold norm; cbn [fst snd]; [destruct (Nat.ltb_spec a b)|destruct (Nat.ltb_spec b a)]; lia || reflexivity.
Qed.
Lemma NoDup_app {B} (l m : list B) : NoDup l -> NoDup m -> (forall x, In x l -> ~ In x m) -> NoDup (l ++ m).
Proof.
  induction 1 as [|x l N1 N2 IH]; intros M D; cbn; [exact M|]. constructor.
  - rewrite in_app_iff. intros [I|I]; [contradiction|]. exact (D x (or_introl eq_refl) I).
  - apply IH; [exact M|]. intros z Hz. apply D. now right.
Qed.
Lemma NoDup_pairs (f : nat -> list nat) l : NoDup l -> (forall k, In k l -> NoDup (f k)) -> NoDup (flat_map (fun k => map (fun q => (k, q)) (f k)) l).
Proof.
  induction 1 as [|k l N1 N2 IH]; intros H; cbn [flat_map]; [constructor|]. apply NoDup_app.
  - specialize (H k (or_introl eq_refl)). induction H as [|q m M1 M2 IH']; cbn; constructor; [|exact IH']. intros I. apply in_map_iff in I. destruct I as (q' & E & I). injection E as ->. contradiction.
  - apply IH. intros k' Hk. apply H. now right.
  - intros (a & b) I J. apply in_map_iff in I. destruct I as (q & E & _). injection E as <- <-. apply in_flat_map in J. destruct J as (k' & Hk' & J). apply in_map_iff in J. destruct J as (q' & E & _). injection E as -> _. contradiction.
Qed.
Lemma links_In nb a b : In (a, b) (links nb) <-> a < length nb /\ a < b /\ In b (nth a nb []).
Proof.
  unfold links. rewrite in_flat_map. split.
  - intros (k & Hk & H). apply in_seq in Hk. apply in_map_iff in H. destruct H as (q & E & H). injection E as -> ->. apply filter_In in H. destruct H as [H1 H2]. apply Nat.ltb_lt in H2. split; [lia|auto].
  - intros (H1 & H2 & H3). exists a. split; [apply in_seq; lia|]. apply in_map_iff. exists b. split; [reflexivity|]. apply filter_In. split; [exact H3|now apply Nat.ltb_lt].
Qed.
Lemma links_NoDup n wt es : NoDup (links (pruned_neighbours n wt es)).
Proof.
  unfold links. apply (NoDup_pairs (fun k => filter (fun q => k <? q) (nth k (pruned_neighbours n wt es) []))); [apply seq_NoDup|].
  intros k Hk. apply in_seq in Hk. rewrite nbrs_length in Hk. apply NoDup_filter, nbrs_NoDup. lia.
Qed.
Lemma wsum_norm wt l : (forall x y, wt x y = wt y x) -> wsum wt (map norm l) = wsum wt l.
Proof.
  intros S. unfold wsum. induction l as [|e l IH]; cbn [map fold_right]; [reflexivity|]. rewrite IH. unfold norm. destruct (fst e <? snd e); [reflexivity|]. cbn [fst snd]. now rewrite S.
Qed.
Lemma wsum_perm wt l m : Permutation l m -> wsum wt l = wsum wt m.
Proof. unfold wsum. induction 1; cbn [map fold_right]; try lra. Qed.

(** ** Paths without repetition *)
Lemma gpath_suffix E x y p z : gpath E x y p -> NoDup p -> In z p -> exists p', gpath E z y p' /\ NoDup p'.
Proof.
  induction 1 as [x|x x' y p L H IH]; intros N I; [destruct I as [<-|[]]; exists [x]; split; [apply gp_one|exact N]|].
  destruct I as [<-|I]; [exists (x :: p); split; [now apply gp_cons with x'|exact N]|]. inversion N; subst. now apply IH.
Qed.
Lemma gpath_simple E x y p : gpath E x y p -> exists p', gpath E x y p' /\ NoDup p'.
Proof.
  induction 1 as [x|x x' y p L H (p' & P & N)]; [exists [x]; split; [apply gp_one|constructor; [intros []|constructor]]|].
  destruct (in_dec Nat.eq_dec x p') as [I|I]; [now apply (gpath_suffix E x' y p')|]. exists (x :: p'). split; [now apply gp_cons with x'|now constructor].
Qed.
Lemma gpath_sub E F x y p : (forall a b, link E a b -> link F a b) -> gpath E x y p -> gpath F x y p.
Proof. intros H. induction 1 as [x|x x' y p L G IH]; [apply gp_one|apply gp_cons with x'; auto]. Qed.

Section Pruned.
  Variables (n : nat) (A : nat -> nat -> bool) (pos : list (list R)) (order : list nat).
  Hypothesis HC : connected n A.
  Hypothesis HP : Permutation order (seq 0 n).
  Hypothesis Hn : 0 < n.
  Let wt := link_weight pos.

  Lemma the_edges : exists es V, spanning_edges n A wt order = Ok es /\ grown es V /\ (forall x, x < n <-> In x V) /\ allowed n A es /\
      forall L, allowed n A L -> connects n L -> (wsum wt es <= wsum wt L)%R.
  Proof. apply spanning; try assumption; intros; [apply weight_sym|apply weight_pos]. Qed.

  Lemma positive_tree es V : grown es V -> (forall x, x < n <-> In x V) -> allowed n A es -> places n A pos -> is_tree n (pruned_neighbours n wt es).
  Proof.
    intros G HV HA HPl. assert (HR : forall k q, link es k q -> k < n /\ q < n) by (intros k q [I|I]; destruct (HA _ _ I); tauto).
    apply (grown_tree n (pruned_neighbours n wt es) es (nbrs_length n wt es)) with V; try assumption; [|now intros; apply nbrs_NoDup].
    intros k q Hk. rewrite (nbrs_In n wt es k q Hk). split; [tauto|]. intros L. destruct (HR k q L) as [_ Hq]. split; [exact Hq|]. split; [exact L|].
    unfold wt. apply (weight_places n A pos q k HPl Hq Hk).
    - destruct (grown_link _ _ _ _ G L) as (_ & _ & N). congruence.
    - destruct L as [I|I]; destruct (HA _ _ I); tauto.
  Qed.

  Lemma prune_ok root : places n A pos -> root < n ->
    exists pr, prune n A (Some pos) order root = Ok pr /\ is_tree n (pr_nbrs pr) /\ orientate (pr_nbrs pr) root = Ok (pr_orient pr, pr_order pr) /\
      (forall k q, k < n -> In q (nth k (pr_nbrs pr) []) -> A k q = true \/ A q k = true) /\
      (forall k, k < n -> nth_error (pr_types pr) k = Some (if Nat.eqb k root then Root else if Nat.eqb (length (nth k (pr_nbrs pr) [])) 1 then Leaf else Plain)) /\
      (all_same_position pos = false -> forall L, allowed n A L -> connects n L -> (total pos (links (pr_nbrs pr)) <= total pos L)%R) /\
      (forall root', root' < n -> exists pr', prune n A (Some pos) order root' = Ok pr' /\ pr_nbrs pr' = pr_nbrs pr).
  Proof.
    intros HPl Hr. destruct the_edges as (es & V & E & G & HV & HA & HM). pose proof (positive_tree es V G HV HA HPl) as T. set (nb := pruned_neighbours n wt es) in *.
    assert (Ln : length nb = n) by apply nbrs_length.
    assert (EX : forall r, r < n -> exists st o, orientate nb r = Ok (st, o) /\ prune n A (Some pos) order r = Ok (mkPr nb (upd r Root (map (fun l => if Nat.eqb (length l) 1 then Leaf else Plain) nb)) st o)).
    { intros r Hr'. destruct (orientation_spec n nb r T Hr') as (st & o & O & _). exists st, o. split; [exact O|]. unfold prune. cbv zeta. fold wt. rewrite E. cbn [bind]. fold nb.
      unfold get. destruct (nth_error (map (fun l => if Nat.eqb (length l) 1 then Leaf else Plain) nb) r) eqn:N; [|apply nth_error_None in N; rewrite map_length in N; lia]. cbn [bind]. rewrite O. reflexivity. }
    destruct (EX root Hr) as (st & o & O & P). exists (mkPr nb (upd root Root (map (fun l => if Nat.eqb (length l) 1 then Leaf else Plain) nb)) st o).
    cbn [pr_nbrs pr_types pr_orient pr_order]. split; [exact P|]. split; [exact T|]. split; [exact O|]. split; [|split; [|split]].
    - intros k q Hk I. apply (nbrs_In n wt es k q Hk) in I. destruct I as (_ & L & _). destruct L as [I|I]; destruct (HA _ _ I); tauto.
    - intros k Hk. destruct (Nat.eqb_spec k root) as [->|Hne]; [apply upd_nth_same; rewrite map_length; lia|]. rewrite upd_nth_other by congruence.
      rewrite nth_error_map, (nth_error_nth' nb []) by lia. reflexivity.
    - intros HS L HL HJ. assert (W : forall M, wsum wt M = total pos M).
      { intros M. unfold wsum, total, wt, link_weight. rewrite HS. reflexivity. }
      rewrite <- !W. specialize (HM L HL HJ). rewrite <- (wsum_norm wt es (weight_sym pos)) in HM. erewrite wsum_perm; [exact HM|].
      apply NoDup_Permutation; [apply links_NoDup|now apply grown_norm with V|]. intros (a & b). rewrite links_In, (norm_In es V a b G), Ln. split.
      + intros (H1 & H2 & H3). apply (nbrs_In n wt es a b H1) in H3. tauto.
      + intros (H1 & H2). assert (a < n /\ b < n) by (destruct H2 as [I|I]; destruct (HA _ _ I); tauto). split; [tauto|]. split; [exact H1|]. apply nbrs_In; [tauto|]. split; [tauto|]. split; [exact H2|].
        unfold wt. apply (weight_places n A pos b a HPl); try tauto; [lia|]. destruct H2 as [I|I]; destruct (HA _ _ I); tauto.
    - intros root' Hr'. destruct (EX root' Hr') as (st' & o' & _ & P'). rewrite P'. eexists. split; reflexivity.
  Qed.

  (** linked nodes at the same place *)
  Lemma colocated x y : all_same_position pos = false -> x < n -> y < n -> x <> y -> A x y = true -> nth x pos [] = nth y pos [] ->
    exists es a b, spanning_edges n A wt order = Ok es /\ a < n /\ b < n /\ forall p, ~ walk (pruned_neighbours n wt es) a b p.
  Proof.
    intros HS Hx Hy Hne HA' HE. destruct the_edges as (es & V & E & G & HV & HA & HM). exists es.
    assert (W0 : wt x y = 0%R) by (unfold wt, link_weight; rewrite HS, HE; apply euclid_self).
    assert (Jes : forall r z, r < n -> z < n -> joined es [r] z).
    { intros r z Hr Hz. destruct (grown_path es V z r G) as (p & P & _); [now apply HV..|]. clear - P. induction P as [z|z z' r p L P IH]; [apply j_in; now left|now apply j_step with z']. }
    destruct (exchange es [x] y (fun z => z < n) (fun z Hz => Jes x z Hx Hz) Hy) as (l1 & f & l2 & a & b & Ees & Ef & Ha & Nb & HJ); [intros [H|[]]; congruence|].
    (* replace f by the link between x and y *)
    assert (JL : connects n ((x, y) :: l1 ++ l2)).
    { assert (J0 : forall z, z < n -> joined ((x, y) :: l1 ++ l2) [x] z).
      { intros z Hz. specialize (HJ z Hz). induction HJ as [z I|z z' L J IH].
        - destruct I as [<-|[<-|[]]]; [|apply j_in; now left]. apply j_step with x; [right; now left|]. apply j_in. now left.
        - apply j_step with z'; [destruct L as [L|L]; [left|right]; now right|]. apply IH. assert (I : In (z, z') es \/ In (z', z) es) by (rewrite Ees, !in_app_iff; cbn; rewrite !in_app_iff in L; tauto).
          destruct I as [I|I]; destruct (HA _ _ I); tauto. }
      assert (Jx : forall r, r < n -> joined ((x, y) :: l1 ++ l2) [r] x).
      { intros r Hr. specialize (J0 r Hr). assert (K : forall M s t, joined M [s] t -> joined M [t] s).
        { intros M s t J. assert (Q : forall u, joined M [u] t -> joined M [u] s). { induction J as [t [<-|[]]|t t' L J IH]; intros u Hu; [exact Hu|]. apply IH. apply j_step with t; [tauto|exact Hu]. } apply Q. apply j_in. now left. }
        now apply K. }
      intros r z Hr Hz. specialize (J0 z Hz). specialize (Jx r Hr). clear - J0 Jx. induction J0 as [z [<-|[]]|z z' L J IH]; [exact Jx|now apply j_step with z']. }
    assert (AL : allowed n A ((x, y) :: l1 ++ l2)).
    { intros s t [I|I]; [injection I as <- <-; auto|]. apply HA. rewrite Ees. apply in_app_iff in I. apply in_app_iff. cbn. tauto. }
    specialize (HM _ AL JL). rewrite Ees in HM. rewrite wsum_app in HM. change (wsum wt ((x, y) :: l1 ++ l2)) with (wt x y + wsum wt (l1 ++ l2))%R in HM. rewrite wsum_app in HM.
    change (wsum wt (f :: l2)) with (wt (fst f) (snd f) + wsum wt l2)%R in HM. assert (Wf : wt a b = 0%R).
    { assert (wt (fst f) (snd f) = wt a b) by (destruct Ef as [-> | -> ]; cbn [fst snd]; [reflexivity|apply weight_sym]). pose proof (weight_pos pos a b). fold wt in H0. lra. }
    assert (Lf : link es a b) by (rewrite Ees; destruct Ef as [-> | -> ]; [left|right]; apply in_app_iff; right; now left).
    assert (HR : forall k q, link es k q -> k < n /\ q < n) by (intros k q [I|I]; destruct (HA _ _ I); tauto). destruct (HR a b Lf) as [La Lb].
    exists a, b. split; [exact E|]. split; [exact La|]. split; [exact Lb|]. intros p Wp.
    set (nb := pruned_neighbours n wt es) in *. pose (F := filter (fun e => if Rlt_dec 0 (wt (fst e) (snd e)) then true else false) es).
    assert (LF : forall k q, link F k q <-> link es k q /\ (0 < wt k q)%R).
    { intros k q. unfold link, F. rewrite !filter_In. cbn [fst snd]. destruct (Rlt_dec 0 (wt k q)) as [R1|R1], (Rlt_dec 0 (wt q k)) as [R2|R2]; pose proof (weight_sym pos k q) as S; fold wt in S; try (exfalso; lra); intuition (try discriminate; lra). }
    assert (GP : gpath F a b p).
    { apply (walk_gpath n nb F) with (2 := fun k q L => HR k q (proj1 (proj1 (LF k q) L))); try assumption. intros k q Hk. unfold nb. rewrite (nbrs_In n wt es k q Hk), LF. pose proof (weight_sym pos k q) as S. fold wt in S. rewrite S. split; [tauto|]. intros [L1 L2]. split; [now apply (HR k q)|tauto]. }
    destruct (gpath_simple _ _ _ _ GP) as (p' & P' & N').
    assert (Eq : p' = [a; b]).
    { destruct (grown_link _ _ _ _ G Lf) as (_ & _ & Nab). apply (grown_unique es V a b p' [a; b] G); [now apply HV|now apply HV| |exact N'| |].
      - apply (gpath_sub F); [|exact P']. intros s t L. now apply LF in L.
      - apply gp_cons with b; [exact Lf|apply gp_one].
      - constructor; [intros [I|[]]; congruence|]. constructor; [intros []|constructor]. }
    subst p'. inversion P' as [|? z ? ? L P'']; subst. inversion P'' as [|]; subst; [|match goal with H : gpath _ _ _ [] |- _ => inversion H end].
    apply LF in L. destruct L as [_ L]. lra.
  Qed.
End Pruned.
