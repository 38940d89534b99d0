(** Specification vocabulary for complete runs with filter estimation (C69). *)
From Verif Require Import Base Sched Buffers Cx Wola Online OnlineSpec OutSpec Filt FiltSpec Scm ScmSpec Ext Full.
From Coq Require Import Reals.
Local Open Scope R_scope.

(** Nothing has happened yet: initial signals, no frame processed, filters disabled, the
    same initial filters for all iterations; [slots] of them, at every node. *)
Record starts (c : acfg) (nsens : list nat) (ref T slots : nat) (a : astate) : Prop := {
  st_signals : a_s a = online_init 0 (ac_o c) nsens ref T;
  st_nodes : length (a_f a) = length (o_nodes (ac_o c)) /\ length (a_x a) = length (o_nodes (ac_o c));
  st_filters : forall k n, nth_error (a_f a) k = Some n ->
    fresh n /\ length (e_w (fn_danse n)) = slots /\
    (exists e, fn_local n = Some e /\ length (e_w e) = slots) /\ fn_centr n = None /\ fn_ssbc n = None;
  st_ext : forall k x, nth_error (a_x a) k = Some x -> x_i x = 0%nat /\ length (x_ext x) = slots
}.

(** The run with the filters of the finished run [a] given (pre-given filters). *)
Definition replay (c : acfg) (y : list (list (list R))) (a : astate) : ocfg := with_filters c y (a_f a) (a_x a).

(** State after the first [m] events. *)
Definition full_reached (c : acfg) (y : list (list (list R))) (sched : list instant) (a : astate) (m : nat) : res astate :=
  foldM (full_event c y) (firstn m (marked_events sched)) a.

(** What node [k] observes at its updates among the first [m] events. *)
Definition observations (c : acfg) (y : list (list (list R))) (sched : list instant) (a0 : astate) (k m : nat) : list (uevent obs) :=
  flat_map (fun j => match nth_error (marked_events sched) j with
                     | Some e => if is_update k (fst e)
                                 then match full_reached c y sched a0 j, snd e with
                                      | Ok a, Some byp => match observe c y (fst (fst e)) k byp (a_s a) with Ok u => [u] | Err _ => [] end
                                      | _, _ => []
                                      end
                                 else []
                     | None => []
                     end) (seq 0 m).

(** Spectrum at bin [f] of a frame of [N] samples: window [h], hop [Ns]. *)
Definition spectrum (N Ns : nat) (h : list R) (x : nat -> R) (f : nat) : cx :=
  (dft N (fun m => cr (nth m h 0 * x m)) f * cr (/ sqrt (INR Ns)))%cx.

(** Filter of iteration [i] at node [k] (DANSE or local) as found after a run. *)
Definition filter_of (wh : which) (a : astate) (k i : nat) : coefs :=
  match wh with Danse => int_at (a_f a) k i | Local => loc_at (a_f a) k i | _ => no_coefs end.

(** [inv] inverts the [n x n] matrix [r]. *)
Definition inverts (inv : nat -> mat -> mat) (n : nat) (r : mat) : Prop := forall a, (forall i j, a i j = r i j) -> is_inverse n a (inv n a).

(** Settings with the external filter [w] at every node and iteration. *)
Definition with_ext (o : ocfg) (w : list (list cx)) : ocfg :=
  mkO (o_p o) (o_nodes o) (o_h o) (o_f o) (o_wola o) (o_comp o) (o_fsd o) (o_every o) (o_nofuse o) (fun _ _ => w) (o_int o) (o_loc o) (o_est o).

(** Array of [m] channels by [nb] bins holding the coefficients [w]. *)
Definition laid_out (m nb : nat) (w : coefs) (l : list (list cx)) : Prop :=
  length l = m /\ forall ch, (ch < m)%nat -> length (nth ch l []) = nb /\ forall f, (f < nb)%nat -> nth f (nth ch l []) czero = w f ch.
