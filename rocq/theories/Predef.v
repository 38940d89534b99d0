(** Model of predefined layouts: /repo/siggen/utils.py 336-373 and 598-612 ([build_room],
    branch 'predefined'), /repo/siggen/classes.py 215-237, 296-345 ([__post_init__]) and
    355-377 ([align_with_loaded_yaml_layout]).

    Simplifications: numbers are rationals; the network drawn for
    [generateRandomWASNwithSeed > 0] is an argument (the generator is seeded, so that every
    call draws the same one); of the noise files only their number matters, or the number
    of files in the folder they are drawn from (C84); the topology and the checks of
    pyroomacoustics are left out; a layout without any sensor counts as an error. *)
From Verif Require Import Base SigGen Prep.
From Coq Require Import QArith.
Open Scope nat_scope.

Inductive noise_files := Given (n : nat) | FromFolder (available : nat).
Record wparams := mkWP {
  wp_rd : list Q; wp_sensors : list nat; wp_desired : nat; wp_noise : nat;
  wp_min_dist : Q; wp_sro : list Q; wp_added : list Q; wp_fs : Q; wp_fs_nodes : list Q; wp_map : list nat;
  wp_desired_files : nat; wp_noise_files : noise_files; wp_random : option (list nat) }.

(** 215-345; [FromFolder]: [np.random.choice(..., replace=False)] of 285-291 *)
Definition reinit (p : wparams) : res wparams :=
  let ms := match wp_random p with Some r => r | None => wp_sensors p end in
  do _ <- match wp_rd p with
          | [] => Err ValueError
          | x :: rd' => if Qle_bool (fold_right (fun a b => if Qle_bool a b then a else b) x rd' / 3) (wp_min_dist p) then Err ValueError else Ok tt
          end;
  do _ <- match wp_noise_files p with FromFolder a => if a <? wp_noise p then Err ValueError else Ok tt | Given _ => Ok tt end;
  do added <- dim_check (wp_added p) (length ms);
  do pi <- post_init (wp_min_dist p) (wp_rd p) (length ms) ms (wp_sro p) (wp_fs p);
  Ok (mkWP (wp_rd p) ms (wp_desired p) (wp_noise p) (wp_min_dist p) (fst (fst pi)) added (wp_fs p) (snd (fst pi)) (snd pi)
           (wp_desired_files p) (wp_noise_files p) (wp_random p)).

Definition pos : Type := Q * Q * Q.
Record layout := mkLay { ly_rd : list Q; ly_m : list nat; ly_sensors : list pos; ly_targets : list pos; ly_interferers : list pos }.

(** classes.py 355-377 *)
Definition n_files (f : noise_files) (drawn : nat) : nat := match f with Given n => n | FromFolder _ => drawn end.
Definition align (p : wparams) (ly : layout) : res wparams :=
  do p' <- reinit (mkWP (ly_rd ly) (ly_m ly) (length (ly_targets ly)) (length (ly_interferers ly)) (wp_min_dist p) (wp_sro p) (wp_added p) (wp_fs p) (wp_fs_nodes p) (wp_map p)
                        (wp_desired_files p) (wp_noise_files p) (wp_random p));
  if wp_desired_files p' <? wp_desired p' then Err ValueError else
  if n_files (wp_noise_files p') (wp_noise p') <? wp_noise p' then Err ValueError else Ok p'.

(** utils.py 359-366: slices of the sensor coordinates; [np.concatenate] rejects empty ones *)
Definition blocks (ms : list nat) (c : list pos) : list (list pos) :=
  map (fun k => slice (list_sum (firstn k ms)) (list_sum (firstn (S k) ms)) c) (seq 0 (length ms)).
Definition concatenate (bs : list (list pos)) : res (list pos) :=
  match bs with
  | [] => Err ValueError
  | _ => if existsb (fun b => Nat.eqb (length b) 0) bs then Err ValueError else Ok (concat bs)
  end.

Record room := mkRoom { rm_dims : list Q; rm_sensors : list pos; rm_desired : list pos; rm_noise : list pos }.
(** 336-373: the room is created (343-349) before the layout is read (351) *)
Definition predefined (p : wparams) (ly : layout) : res (wparams * room) :=
  let dims := wp_rd p in
  do p' <- align p ly;
  if existsb (fun q => negb (Qeq_bool (fst q) (snd q))) (combine (ly_rd ly) (wp_rd p')) then Err ValueError else
  do c <- concatenate (blocks (ly_m ly) (ly_sensors ly));
  Ok (p', mkRoom dims c (ly_targets ly) (ly_interferers ly)).
(** 601-612: sensors of node [k]; [sensorToNodeIndices[ii]] for all sensors of the room *)
Definition node_sensors (p : wparams) (r : room) (k : nat) : res (list pos) :=
  if length (wp_map p) <? length (rm_sensors r) then Err IndexError else Ok (sensors_of k (wp_map p) (rm_sensors r)).
