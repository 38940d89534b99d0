(** Model of the initial correlation matrices: /repo/danse_toolbox/d_base.py 2417-2470
    ([init_covmats]) and d_classes.py 551-574, 575-650 (in [init_from_wasn]).

    Simplifications: exact arithmetic; the numbers drawn are arguments (between 0 and 1);
    'batch_estimates' (see BatchSig.v) is not covered here. *)
From Verif Require Import Base Cx Filt Scm.
From Coq Require Import Reals.
Local Open Scope R_scope.

Inductive init_type := FullyRandom | EyeAndRandom | Eye | OtherInit.
(** DANSEparameters 259-277 *)
Record init_params := mkIP { ip_type : init_type; ip_rand : R; ip_eye : R; ip_same_nodes : bool; ip_same_freqs : bool }.

(** 2446-2447 *)
Definition rand_array (u v : nat -> nat -> nat -> R) : tens := fun f i j => mkC (2 * u f i j - 1) (2 * v f i j - 1).
(** [np.eye(n) * scaling] *)
Definition eye (s : R) : tens := fun _ i j => if Nat.eqb i j then cr s else czero.
(** 2448-2470; an unknown type leaves [fullSlice] undefined *)
Definition init_covmats (p : init_params) (u v : nat -> nat -> nat -> R) : res tens :=
  match ip_type p with
  | FullyRandom => Ok (fun f i j => cr (ip_rand p) * rand_array u v f i j)%cx
  | EyeAndRandom => Ok (fun f i j => eye (ip_eye p) f i j + cr (ip_rand p) * rand_array u v f i j)%cx
  | Eye => Ok (eye (ip_eye p))
  | OtherInit => Err UnboundLocalError
  end.
(** d_classes.py 561-571, 605-613: one draw for all nodes or one per node; one slice for all
    frequencies or one per frequency ([u k f i j], [v k f i j]: numbers drawn for node [k]) *)
Definition full_slice (p : init_params) (u v : nat -> nat -> nat -> nat -> R) (k : nat) : res tens :=
  let k' := if ip_same_nodes p then 0%nat else k in
  let at_freq (w : nat -> nat -> nat -> R) := fun f => w (if ip_same_freqs p then 0%nat else f) in
  init_covmats p (at_freq (u k')) (at_freq (v k')).
(** number of rows of [x[:d, :d]] when [x] has [total] rows *)
Definition sliced (total d : nat) : nat := Nat.min d total.
(** 575-580: number of channels a node works with *)
Definition received (ti : bool) (neighbours : list nat) : nat := if ti then 1%nat else length neighbours.
(** 614-650: sizes and values of the initial matrices of a node, the same for speech and
    for noise: local and received signals, centralised, single-sensor broadcast, local
    signals, fused signals *)
Record inits := mkI { i_tilde : nat * tens; i_centr : nat * tens; i_ssbc : nat * tens; i_local : nat * tens; i_z : nat * tens }.
Definition initial (p : init_params) (ti : bool) (ms : list nat) (neighbours : list nat) (u v : nat -> nat -> nat -> nat -> R) (k : nat) : res inits :=
  do r <- full_slice p u v k;
  do m <- get ms k;
  let total := list_sum ms in
  let d := (m + received ti neighbours)%nat in
  Ok (mkI (sliced total d, r) (total, r) (sliced total d, r) (sliced total m, r) (sliced total (received ti neighbours + 1), r)).
