(** Theorems about the delay line (C42), the offset controllers (C44, C59) and the
    topologies (C45) of dxcpphat. *)
From Verif Require Import Base Dxcp DxcpSpec DxcpFacts DxcpFacts2.
From Coq Require Import Reals Lra.

(** ** C42 *)
(** any interleaving of writes, reads and clearings *)
Theorem C42_delay_line : forall {A} (z : A) n os, 0 < n -> db_run z (db_new z n) os = Ok (ideal_reads z n [] os).
Proof. intros A z n os Hn. apply db_run_ok; [exact Hn | apply db_inv_new; exact Hn]. Qed.
(** in particular: after a sequence of writes, the value of [n - 1] writes ago *)
Theorem C42_write_then_read : forall {A} (z : A) n (us : list A), 0 < n ->
  db_run z (db_new z n) (map DWrite us ++ [DRead]) = Ok [nth (n - 1) (rev us) z].
Proof.
  intros A z n us Hn. rewrite C42_delay_line by exact Hn. f_equal.
  assert (G : forall h, ideal_reads z n h (map DWrite us ++ [DRead]) = [nth (n - 1) (rev us ++ h) z]).
  { induction us as [|u us IH]; intros h; [reflexivity|]. cbn [map app ideal_reads rev]. rewrite IH, <- app_assoc. reflexivity. }
  rewrite G, app_nil_r. reflexivity.
Qed.
(** a length of zero makes the first write fail *)
Theorem C42_zero_length_raises : forall {A} (z x : A), db_run z (db_new z 0) [DWrite x] = Err IndexError.
Proof. reflexivity. Qed.
Example C42_example : db_run 0 (db_new 0 3) [DWrite 1; DRead; DWrite 2; DWrite 3; DRead; DWrite 4; DRead; DClear; DRead; DWrite 5; DRead]
  = Ok [0; 1; 2; 0; 0].
Proof. reflexivity. Qed.

(** ** C44 *)
Theorem C44_bounded : forall inputs, (-100 <= snd (simple_run inputs) <= 100)%R.
Proof. exact simple_bounds. Qed.
(** one step: the smoothed residual, and the integrated estimate limited to +-100 ppm *)
Theorem C44_step : forall inputs acs r, let st := simple_run inputs in let st' := simple_run (inputs ++ [(acs, r)]) in
  fst st' = ((1 - acs) * fst st + acs * r)%R /\ snd st' = Rmax (-100) (Rmin 100 (snd st + fst st' / 100)).
Proof. exact simple_step. Qed.
(** After [t] frames the state was refreshed for the frames [K], [2K], ..., with
    [K = shift / frame], each time from the [size] most recent samples. *)
Theorem C44_refresh : forall {A S} (update : list A -> S -> S) frame shift size (z : A) s0 frames,
  frame <= size -> 1 <= shift / frame -> (forall x, In x frames -> length x = frame) ->
  exists e, process_all update frame shift (est_new size z s0) frames = Ok e /\
    sta e = fold_left (fun s j => update (last_samples z size (j * (shift / frame)) frames) s) (seq 1 (length frames / (shift / frame))) s0.
Proof.
  intros A S update frame shift size z s0 frames Hf Hk Hx. eexists. split; [apply est_ok; assumption | reflexivity].
Qed.
(** frames larger than the FFT shift: never refreshed *)
Theorem C44_large_frames_never_refresh : forall {A S} (update : list A -> S -> S) frame shift size (z : A) s0 frames e,
  shift < frame -> process_all update frame shift (est_new size z s0) frames = Ok e -> sta e = s0.
Proof.
  intros A S update frame shift size z s0 frames e Hs. assert (Hk : shift / frame = 0) by (apply Nat.div_small; exact Hs).
  assert (G : forall fs e0, 0 < cnt e0 -> forall e, process_all update frame shift e0 fs = Ok e -> sta e = sta e0).
  { induction fs as [|x fs IH]; intros e0 H0 e1 H; cbn in H; [injection H as <-; reflexivity|].
    unfold process_data in H. rewrite Hk in H. destruct (negb _); [discriminate|]. cbn [bind] in H.
    destruct (Nat.eqb_spec (cnt e0) 0); [lia|]. apply IH in H; [exact H | cbn [cnt]; lia]. }
  intros H. apply G in H; [exact H | cbn; lia].
Qed.
Example C44_example : exists e, process_all (fun b s => s ++ [b]) 2 4 (est_new 6 0 []) [[1;2];[3;4];[5;6];[7;8];[9;10]] = Ok e
  /\ sta e = [[0;0;1;2;3;4]; [3;4;5;6;7;8]].
Proof. eexists. split; reflexivity. Qed.

(** ** C59 *)
(** The estimate of the controller is zero for the first [delay + 2] frames ... *)
Theorem C59_start_delay : forall k1 k2 c1 c2 delay inputs, length inputs <= delay + 2 ->
  imc_out (imc_run k1 k2 c1 c2 delay inputs) = 0%R.
Proof. exact imc_delayed. Qed.
(** ... and as long as every later frame is unusable or shows no residual offset. *)
Theorem C59_silent_when_inactive : forall k1 k2 c1 c2 delay inputs,
  (forall i a r, nth_error inputs i = Some (a, r) -> i <= delay \/ a = false \/ r = 0%R) ->
  imc_out (imc_run k1 k2 c1 c2 delay inputs) = 0%R.
Proof. intros. unfold imc_out. destruct (imc_silent k1 k2 c1 c2 delay inputs) as [_ E]; [assumption|]. rewrite E. reflexivity. Qed.
(** the first frame that can matter is the one just after the start delay: it acts one frame later *)
Theorem C59_first_effect : forall k1 k2 c1 c2 delay inputs r p, length inputs = delay + 1 ->
  imc_out (imc_run k1 k2 c1 c2 delay (inputs ++ [(true, r); p])) = (k1 * r)%R.
Proof.
  intros k1 k2 c1 c2 delay inputs r p Hl. replace (inputs ++ [(true, r); p]) with ((inputs ++ [(true, r)]) ++ [p]) by (rewrite <- app_assoc; reflexivity).
  rewrite !imc_run_snoc. destruct (imc_silent k1 k2 c1 c2 delay inputs) as [H1 H2].
  { intros i a r' Hi. left. assert (i < length inputs) by (apply nth_error_Some; congruence). lia. }
  assert (He := imc_ell k1 k2 c1 c2 delay inputs). set (st := imc_run k1 k2 c1 c2 delay inputs) in *.
  unfold imc_out, imc_step. cbn [fst snd]. rewrite H1, H2, He. cbn [fst snd dS sS]. destruct (Nat.leb_spec (length inputs) delay); [lia|]. ring.
Qed.
Example C59_example : imc_out (imc_run 2%R 3%R 5%R 7%R 1 [(true, 9%R); (true, 9%R); (true, 4%R); (true, 1%R)]) = 8%R.
Proof. etransitivity; [exact (C59_first_effect 2 3 5 7 1 [(true, 9%R); (true, 9%R)] 4 (true, 1%R) eq_refl)|]. lra. Qed.

(** ** C45 *)
Theorem C45_accepted_iff : forall levels whitelist, verify_topology levels whitelist = true <-> valid_topology levels whitelist.
Proof. exact verify_iff. Qed.
(** every asynchronous node is a leaf of exactly one branch, the tree root of none *)
Theorem C45_leaf_once : forall levels whitelist n, verify_topology levels whitelist = true ->
  (exists level b, In level levels /\ In b level /\ In n b) ->
  count_occ Nat.eq_dec (concat (map leaves levels)) n = if Nat.eqb n (tree_root levels) then 0 else 1.
Proof.
  intros levels wl n Hv Hn. destruct (delays_ok levels wl 1 Hv) as (ns & ds & E & _ & _ & Hset & _). apply verify_iff in Hv. destruct Hv as [_ _ _ V4 _].
  apply NoDup_cons_iff in V4. destruct V4 as [V4 V4']. destruct (Nat.eqb_spec n (tree_root levels)) as [->|Hne]; [apply count_occ_not_In; exact V4|].
  assert (Hi : In n (concat (map leaves levels))).
  { apply Hset. destruct (unique_nodes_spec levels) as [_ U]. apply U in Hn. rewrite E in Hn. destruct Hn as [C|C]; [congruence | exact C]. }
  apply (count_occ_In Nat.eq_dec) in Hi. rewrite (NoDup_count_occ Nat.eq_dec) in V4'. specialize (V4' n). lia.
Qed.
(** the delays belong to the asynchronous nodes in the order of the node list: level
    times the delay per level *)
Theorem C45_delays : forall levels whitelist d, verify_topology levels whitelist = true ->
  exists ns ds, unique_nodes levels = tree_root levels :: ns /\ async_delays levels d = Ok ds /\ length ds = length ns /\
    (forall n, In n ns <-> In n (concat (map leaves levels))) /\ NoDup ns /\
    forall k level b n, nth_error levels k = Some level -> In b level -> In n (tl b) ->
      exists i, nth_error ns i = Some n /\ nth_error ds i = Some (Z.of_nat k * d)%Z.
Proof. exact delays_ok. Qed.
(** hence one level more than the reference, when that is not the tree root *)
Theorem C45_delay_vs_reference : forall levels whitelist d k level b n, verify_topology levels whitelist = true ->
  nth_error levels k = Some level -> In b level -> In n (tl b) -> hd 0 b <> tree_root levels ->
  exists ns ds i j v, unique_nodes levels = tree_root levels :: ns /\ async_delays levels d = Ok ds /\
    nth_error ns i = Some n /\ nth_error ns j = Some (hd 0 b) /\ nth_error ds j = Some v /\ nth_error ds i = Some (v + d)%Z.
Proof.
  intros levels wl d k level b n Hv Hk Hb Hn Hr. destruct (delays_ok levels wl d Hv) as (ns & ds & E1 & E2 & _ & _ & _ & G).
  destruct (G k level b n Hk Hb Hn) as (i & Hi & Hdi). apply verify_iff in Hv. destruct Hv as [(b0 & rest & Hb0) V2 V3 V4 V5].
  destruct k as [|k].
  { exfalso. rewrite Hb0 in Hk. injection Hk as <-. destruct Hb as [<-|[]]. apply Hr. rewrite Hb0. reflexivity. }
  destruct (nth_error levels k) as [above|] eqn:Ha.
  2:{ apply nth_error_None in Ha. assert (S k < length levels) by (apply nth_error_Some; congruence). lia. }
  destruct (V5 k above level b Ha Hk Hb) as [C|[_ C]]; [|contradiction]. apply in_leaves in C. destruct C as (b' & Hb' & C).
  destruct (G k above b' (hd 0 b) Ha Hb' C) as (j & Hj & Hdj). exists ns, ds, i, j, (Z.of_nat k * d)%Z.
  repeat split; try assumption. rewrite Hdi. f_equal. lia.
Qed.
(** The tree root may again be the root of a branch of the second level: its leaves
    there get the delay of the second level although they have the same reference as
    the leaves of the first level, which get none. *)
Theorem C45_same_reference_refuted : exists levels whitelist n n',
  verify_topology levels whitelist = true /\
  (exists level b, nth_error levels 0 = Some level /\ In b level /\ hd 0 b = tree_root levels /\ In n (tl b)) /\
  (exists level b, nth_error levels 1 = Some level /\ In b level /\ hd 0 b = tree_root levels /\ In n' (tl b)) /\
  unique_nodes levels = [tree_root levels; n; n'] /\ async_delays levels 2 = Ok [0; 2]%Z.
Proof.
  exists [[[7; 1]]; [[7; 2]]], [1; 2; 7], 1, 2. split; [reflexivity|]. split; [exists [[7; 1]], [7; 1]; cbn; tauto|]. split; [exists [[7; 2]], [7; 2]; cbn; tauto|]. split; reflexivity.
Qed.
Example C45_example : verify_topology [[[0; 1; 2]]; [[1; 3]; [2; 4; 5]]; [[4; 6]]] [0;1;2;3;4;5;6;7] = true /\
  async_delays [[[0; 1; 2]]; [[1; 3]; [2; 4; 5]]; [[4; 6]]] 2 = Ok [0; 0; 2; 2; 2; 4]%Z /\
  verify_topology [[[0; 1; 2]]; [[1; 3]; [2; 3]]] [0;1;2;3] = false.
Proof. repeat split. Qed.
