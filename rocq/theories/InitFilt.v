(** Model of the initial filters: danse_toolbox/d_base.py 2367-2414
    [init_complex_filter] and its calls in d_classes.py 664-726. *)
From Verif Require Import Base Cx.
From Coq Require Import Reals.
Set Implicit Arguments.
Open Scope R_scope.

(** d_base.py 250-256; any other string leaves [wInit] undefined (2414 raises
    UnboundLocalError: not modelled, strings are checked nowhere). *)
Inductive itype := SelectFirst | Random | FixedValue | SelectFixed.

(** 2395-2413, for one frequency and iteration: [n] channels.  [rnd] are the numbers
    drawn (2401-2403), [fixed] is the parameter.  Index errors of numpy: 1 assigned
    outside the array. *)
Definition init_filter (ty : itype) (n ref : nat) (fixed : R) (rnd : nat -> cx) : res (nat -> cx) :=
  match ty with
  | SelectFirst =>
      if Nat.ltb ref n then Ok (fun c => if Nat.eqb c ref then cone else czero) else Err IndexError
  | Random => Ok rnd
  | FixedValue => Ok (fun _ => cr fixed)
  | SelectFixed =>
      if Nat.ltb ref n then Ok (fun c => if Nat.eqb c ref then cone else cr fixed) else Err IndexError
  end.

Section Net.
  Variables (ms : nat -> nat) (nbrs : nat -> list nat) (ti : bool) (ty : itype) (ref : nat) (fixed : R).
  (** draws for the internal, external, local and centralised filter of a node: each
      call starts a generator with the same seed, but fills an array of another shape *)
  Variables (rnd_int rnd_ext rnd_loc rnd_centr : nat -> nat -> cx).
  (** 664-669: dimension [dimYTilde[k]], d_classes.py 574-578 *)
  Definition init_int (k : nat) : res (nat -> cx) :=
    init_filter ty (ms k + (if ti then 1 else length (nbrs k))) ref fixed (rnd_int k).
  (** 676-708: as many coefficients as sensors, one more in TI-DANSE *)
  Definition init_ext (k : nat) : res (nat -> cx) :=
    init_filter ty (if ti then ms k + 1 else ms k) ref fixed (if ti then rnd_int k else rnd_ext k).
  (** 719-724 *)
  Definition init_local (k : nat) : res (nat -> cx) := init_filter ty (ms k) ref fixed (rnd_loc k).
  (** 710-718: the reference is counted from the first sensor of the first node *)
  Definition init_centr (nn k : nat) : res (nat -> cx) :=
    let before := fold_left (fun a q => a + ms q)%nat (seq 0 k) 0%nat in
    let total := fold_left (fun a q => a + ms q)%nat (seq 0 nn) 0%nat in
    init_filter ty total (before + ref) fixed (rnd_centr k).
End Net.
