(** Model of the removal of silent frames (danse_toolbox/mypystoi/utils.py 101-146). *)
From Verif Require Import Base Level.
From Coq Require Import Reals.
Local Open Scope R_scope.

(** 115: [np.hanning(framelen + 2)[1:-1]] *)
Definition win (L j : nat) : R := 1 / 2 - 1 / 2 * cos (2 * PI * INR (S j) / INR (S L)).
(** [range(0, len(x) - framelen, hop)]: number of frames *)
Definition n_frames (len L hop : nat) : nat := ((len - L + (hop - 1)) / hop)%nat.
(** 117-120: one windowed frame, starting at [i] *)
Definition frame (x : list R) (L i : nat) : list R := map (fun j => win L j * nth (i + j) x 0) (seq 0 L).
(** 123; [EPS] is the machine precision *)
Definition eps : R := / 2 ^ 52.
Definition frame_energy (fr : list R) : R := 20 * log10 (sqrt (energy fr) + eps).
(** [np.max] *)
Definition rmax (e : list R) : R := match e with [] => 0 | a :: r => fold_left Rmax r a end.
(** 127 *)
Definition mask (e : list R) (dyn : R) : list bool := map (fun v => if Rlt_dec (rmax e - dyn - v) 0 then true else false) e.
(** boolean indexing *)
Definition select_frames {A} (m : list bool) (fr : list A) : list A := map snd (filter fst (combine m fr)).
(** 139-141: addition of a frame at offset [o] *)
Definition add_at (o : nat) (fr z : list R) : list R :=
  map (fun p => snd p + (if (o <=? fst p)%nat && (fst p <? o + length fr)%nat then nth (fst p - o) fr 0 else 0)) (combine (seq 0 (length z)) z).
Definition overlap_add (hop : nat) (frs : list (list R)) (n : nat) : list R :=
  fold_left (fun z p => add_at (fst p * hop) (snd p) z) (combine (seq 0 (length frs)) frs) (repeat 0 n).
(** 101-143.  A zero [hop] is refused by [range]; without frames [np.linalg.norm] with
    [axis=1] raises (an error that is a ValueError); frames reaching beyond the end of
    [y] do not fit the window (simplified: numpy accepts a slice of one sample).
    A negative [n_sil] is refused by [np.zeros]. *)
Definition remove_silent_frames (x y : list R) (dyn : R) (L hop : nat) : res (list R * list R) :=
  if Nat.eqb hop 0 then Err ValueError
  else
    let nf := n_frames (length x) L hop in
    if Nat.eqb nf 0 then Err ValueError
    else if (length y <? (nf - 1) * hop + L)%nat then Err ValueError
    else
      let xf := map (fun k => frame x L (k * hop)) (seq 0 nf) in
      let yf := map (fun k => frame y L (k * hop)) (seq 0 nf) in
      let m := mask (map frame_energy xf) dyn in
      let xf := select_frames m xf in
      let yf := select_frames m yf in
      let n_sil := ((Z.of_nat (length xf) - 1) * Z.of_nat hop + Z.of_nat L)%Z in
      if (n_sil <? 0)%Z then Err ValueError
      else Ok (overlap_add hop xf (Z.to_nat n_sil), overlap_add hop yf (Z.to_nat n_sil)).
