From Verif Require Import Base BaseFacts Level LevelSpec LevelFacts.
From Coq Require Import QArith Reals Lra Psatz.
Open Scope R_scope.

Lemma window_around n nw i : window n nw i = around n nw i.
Proof.
  unfold window, around. apply filter_ext. intros j. f_equal.
  destruct (Nat.leb_spec (i - nw / 2) j), (Nat.leb_spec i (j + nw / 2)); try reflexivity; lia.
Qed.
Lemma oracle_spec x nw thr : (2 <= nw)%nat -> exists v, oracle_vad x nw thr = Ok v /\ length v = length x /\
  forall i, (i < length x)%nat -> (nth i v false = true <-> thr < mean_energy_at x (around (length x) nw i)).
Proof.
  intros Hw. destruct (oracle_ok x nw thr Hw) as (v & H1 & H2 & H3). exists v. split; [exact H1|]. split; [exact H2|].
  intros i Hi. rewrite (H3 i Hi), window_around. unfold mean_energy_at.
  rewrite (map_ext (fun j => nth j x 0 ^ 2) (fun j => nth j x 0 * nth j x 0)) by (intros; ring). reflexivity.
Qed.
Lemma oracle_short x nw thr : (nw < 2)%nat -> x <> [] -> oracle_vad x nw thr = Err ZeroDivisionError.
Proof.
  intros Hw Hx. unfold oracle_vad. destruct x as [|v x]; [congruence|]. cbn [length seq mapM].
  rewrite (Nat.div_small nw 2) by lia. cbn. reflexivity.
Qed.
Lemma oracle_monotone x nw thr thr' v v' i : thr <= thr' -> oracle_vad x nw thr = Ok v -> oracle_vad x nw thr' = Ok v' ->
  nth i v' false = true -> nth i v false = true.
Proof.
  intros Ht Hv Hv' Hi. destruct (Nat.lt_ge_cases nw 2) as [Hw|Hw].
  - destruct x as [|a x]; [cbn in Hv, Hv'; injection Hv as <-; injection Hv' as <-; exact Hi|]. rewrite oracle_short in Hv by (lia || congruence). discriminate.
  - destruct (oracle_spec x nw thr Hw) as (w & H1 & H2 & H3). destruct (oracle_spec x nw thr' Hw) as (w' & H1' & H2' & H3').
    assert (w = v) by congruence. assert (w' = v') by congruence. subst w w'.
    destruct (Nat.lt_ge_cases i (length x)) as [Hl|Hl]; [|rewrite nth_overflow in Hi by lia; discriminate].
    apply H3; [exact Hl|]. apply (H3' i Hl) in Hi. lra.
Qed.

Lemma rotate_dist t pts i j d : (vx t <> 0 \/ vy t <> 0) -> (i < length pts)%nat -> (j < length pts)%nat ->
  dist2 (nth i (rotate_array t pts) d) (nth j (rotate_array t pts) d) = dist2 (nth i pts d) (nth j pts d).
Proof.
  intros Ht Hi Hj. unfold rotate_array.
  set (f := fun p => vplus (mvec3 (rot_mat t) (vsub p t)) t).
  rewrite (nth_indep (map f pts) d (f d)) by (rewrite map_length; exact Hi). rewrite (nth_indep (map f pts) d (f d)) by (rewrite map_length; exact Hj).
  rewrite !(map_nth f). unfold f. set (p := nth i pts d). set (q := nth j pts d).
  destruct (rot_mat_form t Ht) as (Hu & Hb & E). set (b := vscale (/ vnorm t) t) in *.
  assert (G : dist2 (vplus (mvec3 (rot_mat t) (vsub p t)) t) (vplus (mvec3 (rot_mat t) (vsub q t)) t) = dot (mvec3 (rot_mat t) (vsub p q)) (mvec3 (rot_mat t) (vsub p q))).
  { unfold mvec3, dist2, vplus, vsub, dot. cbn [vx vy vz r1 r2 r3]. ring. }
  rewrite G, E. rewrite rmat_isometry by (unfold dot in Hu; assumption). unfold dot, dist2, vsub. cbn [vx vy vz]. ring.
Qed.
Lemma rotate_axis t k : (vx t <> 0 \/ vy t <> 0) ->
  rotate_array t [vplus t (vscale k zaxis)] = [vplus t (vscale (k / vnorm t) t)].
Proof.
  intros Ht. destruct (rot_mat_form t Ht) as (Hu & Hb & E). set (b := vscale (/ vnorm t) t) in *.
  unfold rotate_array. cbn [map]. f_equal. rewrite E.
  assert (Hk : 1 - / (1 + vz b) * (vx b * vx b + vy b * vy b) = vz b).
  { unfold dot in Hu. replace (vx b * vx b + vy b * vy b) with ((1 + vz b) * (1 - vz b)) by nra. field. exact Hb. }
  unfold rmat. rewrite Hk. unfold mvec3, vplus, vsub, vscale, dot, zaxis, b, vscale. cbn [vx vy vz r1 r2 r3]. unfold Rdiv. f_equal; ring.
Qed.
Lemma rot_det t : (vx t <> 0 \/ vy t <> 0) -> det3 (rot_mat t) = 1.
Proof.
  intros Ht. destruct (rot_mat_form t Ht) as (Hu & Hb & E). rewrite E. set (b := vscale (/ vnorm t) t) in *. unfold dot in Hu.
  assert (Hk : / (1 + vz b) * (vx b * vx b + vy b * vy b) = 1 - vz b).
  { replace (vx b * vx b + vy b * vy b) with ((1 + vz b) * (1 - vz b)) by nra. field. exact Hb. }
  set (k := / (1 + vz b)) in *. unfold det3, rmat, dot, cross. cbn [vx vy vz r1 r2 r3]. rewrite Hk.
  transitivity ((1 - k * (vx b * vx b + vy b * vy b)) * vz b + (vx b * vx b + vy b * vy b)); [|rewrite Hk; nra].
  set (x := vx b) in *. set (y := vy b) in *. set (z := vz b) in *. ring.
Qed.
