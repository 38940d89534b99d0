(** Specification vocabulary for the dxcpphat components. *)
From Verif Require Import Base Dxcp.

(** values read from an ideal delay line of length [n]; [h] is what was written since
    the last clearing, newest first *)
Fixpoint ideal_reads {A} (z : A) (n : nat) (h : list A) (os : list (dop A)) : list A :=
  match os with
  | [] => []
  | DWrite x :: os' => ideal_reads z n (x :: h) os'
  | DRead :: os' => nth (n - 1) h z :: ideal_reads z n h os'
  | DClear :: os' => ideal_reads z n [] os'
  end.

(** the last [size] samples of the zero-padded stream after [t] frames *)
Definition last_samples {A} (z : A) (size t : nat) (frames : list (list A)) : list A :=
  let s := repeat z size ++ concat (firstn t frames) in skipn (length s - size) s.

(** ** Topologies *)
Definition leaves (level : list (list nat)) : list nat := concat (map (@tl nat) level).
Definition tree_root (levels : list (list (list nat))) : nat := hd 0 (hd [] (hd [] levels)).
Record valid_topology (levels : list (list (list nat))) (wl : list nat) : Prop := {
  vt_first : exists b rest, levels = [b] :: rest;
  vt_shape : forall level b, In level levels -> level <> [] /\ (In b level -> 2 <= length b /\ forall n, In n b -> In n wl);
  vt_level : forall level, In level levels -> NoDup (concat level);
  vt_leaf_once : NoDup (tree_root levels :: concat (map leaves levels));
  vt_root : forall k above level b, nth_error levels k = Some above -> nth_error levels (S k) = Some level -> In b level ->
    In (hd 0 b) (leaves above) \/ (k = 0 /\ hd 0 b = tree_root levels)
}.
