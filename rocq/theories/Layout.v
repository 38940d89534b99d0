(** Model of the placement of sensors and sources in a room: siggen/utils.py 962-1067
    [generate_array_pos], 369-396 (layouts 'random' and 'all_nodes_in_center' of
    [build_room]).

    Reals instead of floats; random numbers are parameters (streams of numbers between 0 and
    1, as [np.random.uniform] scales them); the rotation that scipy makes of a random vector
    is a parameter as well. *)
From Verif Require Import Base.
From Coq Require Import Reals.
Local Open Scope R_scope.

(** points and vectors *)
Record vec := V { px : R; py : R; pz : R }.
Definition vadd (a b : vec) : vec := V (px a + px b) (py a + py b) (pz a + pz b).
Definition vsub (a b : vec) : vec := V (px a - px b) (py a - py b) (pz a - pz b).
Definition vscale (k : R) (a : vec) : vec := V (k * px a) (k * py a) (k * pz a).
Definition vzero : vec := V 0 0 0.
Definition dot (a b : vec) : R := px a * px b + py a * py b + pz a * pz b.
Definition norm (a : vec) : R := sqrt (dot a a).
(** [np.mean(.., axis=0)] *)
Definition vmean (l : list vec) : vec := vscale (/ INR (length l)) (fold_right vadd vzero l).
Definition rmean (l : list R) : R := fold_right Rplus 0 l / INR (length l).

(** [np.linspace(0, stop, num)] *)
Definition linspace (stop : R) (num : nat) : list R := map (fun i => INR i * (stop / INR (num - 1))) (seq 0 num).
(** 990-1007; [rot] is the rotation drawn *)
Definition linear_array (rot : vec -> vec) (c : vec) (Mk : nat) (sep : R) : list vec :=
  let x := linspace (INR Mk * sep) Mk in
  let m := rmean x in
  map (fun t => vadd (rot (V (t - m) 0 0)) c) x.

(** 1008-1017: points are drawn in a cube until one is in the ball; [t] counts the draws *)
Fixpoint accept (fuel : nat) (draw : nat -> vec) (radius : R) (t : nat) : res (vec * nat) :=
  match fuel with
  | O => Err OutOfFuel
  | S f =>
    let r := vscale radius (draw t) in
    if Rle_dec (norm r) radius then Ok (r, S t) else accept f draw radius (S t)
  end.
Fixpoint radius_array (fuel : nat) (draw : nat -> vec) (c : vec) (Mk : nat) (radius : R) (t : nat) : res (list vec) :=
  match Mk with
  | O => Ok []
  | S M =>
    do r <- accept fuel draw radius t;
    do l <- radius_array fuel draw c M radius (snd r);
    Ok (vsub (vadd (fst r) c) (V (radius / 2) (radius / 2) (radius / 2)) :: l)
  end.

(** 1018-1049: [np.meshgrid] has the second coordinate first *)
Definition three (a d : R) : list R := [a - d; a; a + d].
Definition grid_points (c : vec) (d : R) : list vec :=
  flat_map (fun y => flat_map (fun x => map (fun z => V x y z) (three (pz c) d)) (three (px c) d)) (three (py c) d).
Definition atomic : list nat := [13; 4; 22; 10; 16; 14; 12]%nat.
Definition others : list nat := filter (fun i => negb (memN i atomic)) (seq 0 27).
Definition grid_array (c : vec) (Mk : nat) (d : R) : res (list vec) :=
  do first <- mapM (get (grid_points c d)) (firstn (Nat.min (length atomic) Mk) atomic);
  do rest <- mapM (fun i => do j <- get others i; get (grid_points c d) j) (seq 0 (Mk - length atomic));
  Ok (first ++ rest).

(** 'linear', 'radius', 'grid3d', anything else *)
Inductive geometry := Linear | Radius | Grid3d | OtherGeometry.
(** random choices for one array: rotation of linear arrays, points for 'radius', final
    rotation *)
Record choices := mkC { ch_lin : vec -> vec; ch_pts : nat -> vec; ch_rot : vec -> vec }.
(** 1054-1066 *)
Definition rotate (rot : vec -> vec) (l : list vec) : list vec :=
  let m := vmean l in map (fun s => vadd (rot (vsub s m)) m) l.
Definition array_pos (fuel : nat) (g : geometry) (ch : choices) (c : vec) (Mk : nat) (sep : R) (random_rot : bool) : res (list vec) :=
  do l <- match g with
          | Linear => Ok (linear_array (ch_lin ch) c Mk sep)
          | Radius => radius_array fuel (ch_pts ch) c Mk sep 0
          | Grid3d => grid_array c Mk sep
          | OtherGeometry => Err ValueError
          end;
  Ok (if random_rot then rotate (ch_rot ch) l else l).

(** 371-372, 375-376, 385-386: a point of the room at some distance from the walls *)
Definition in_box (rd : vec) (m : R) (u : vec) : vec :=
  V (px u * (px rd - 2 * m) + m) (py u * (py rd - 2 * m) + m) (pz u * (pz rd - 2 * m) + m).
(** 369-396: desired sources, noise sources, sensors of each node; [u..] are the random
    numbers *)
Definition random_layout (fuel : nat) (centre : bool) (rd : vec) (m : R) (g : geometry) (sep : R) (Mk : list nat)
    (ud un uc : list vec) (ch : list choices) : res (list vec * list vec * list (list vec)) :=
  do sensors <- mapM (fun p => let '(M, (u, c)) := p in
                        let r := if centre then V (px rd / 2) (py rd / 2) (pz rd / 2) else in_box rd m u in
                        array_pos fuel g c r M sep false) (combine Mk (combine uc ch));
  Ok (map (in_box rd m) ud, map (in_box rd m) un, sensors).
