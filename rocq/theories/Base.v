(** Shared vocabulary: Python exceptions as values, Python/numpy list helpers. *)
From Coq Require Export List Arith ZArith Lia Bool Permutation Sorting.Sorted.
From Coq Require Export ZifyBool ZifyNat.
Export ListNotations.
Set Implicit Arguments.

(** Python exceptions that the modelled code can raise (directly or through
    numpy).  [OutOfFuel] marks a [while] loop that did not finish within the
    fuel given to the model; theorems exclude it explicitly. *)
Inductive err :=
  | IndexError | ValueError | KeyError | TypeError | ZeroDivisionError
  | UnboundLocalError | AttributeError | NotImplementedError | OutOfFuel.

Inductive res (A : Type) :=
  | Ok (a : A)
  | Err (e : err).
Arguments Ok {A} a.
Arguments Err {A} e.

Definition bind {A B} (x : res A) (f : A -> res B) : res B :=
  match x with Ok a => f a | Err e => Err e end.
Notation "'do' x <- e1 ; e2" := (bind e1 (fun x => e2))
  (at level 200, x pattern, e1 at level 100, e2 at level 200).

Definition is_ok {A} (x : res A) : Prop := exists a, x = Ok a.

(** [mapM] over a list, stopping at the first exception. *)
Fixpoint mapM {A B} (f : A -> res B) (l : list A) : res (list B) :=
  match l with
  | [] => Ok []
  | x :: l' => do y <- f x; do ys <- mapM f l'; Ok (y :: ys)
  end.

(** Plain list indexing with a non-negative index: [l[i]]. *)
Definition get {A} (l : list A) (i : nat) : res A :=
  match nth_error l i with Some x => Ok x | None => Err IndexError end.

(** Python list indexing [l[i]] with a possibly negative index. *)
Definition py_get {A} (l : list A) (i : Z) : res A :=
  let n := Z.of_nat (length l) in
  let j := if (i <? 0)%Z then (i + n)%Z else i in
  if ((0 <=? j) && (j <? n))%Z
  then get l (Z.to_nat j)
  else Err IndexError.

(** Python slices [l[a:b]] with non-negative bounds (clipped, never raising). *)
Definition slice {A} (a b : nat) (l : list A) : list A :=
  firstn (b - a) (skipn a l).

(** Python's resolution of one (possibly negative) slice bound against a
    sequence of length [n]. *)
Definition py_bound (n : nat) (i : Z) : nat :=
  let zn := Z.of_nat n in
  let j := if (i <? 0)%Z then (i + zn)%Z else i in
  Z.to_nat (Z.min (Z.max j 0) zn).

(** Python slice [l[a:b]] with integer bounds of any sign. *)
Definition py_slice {A} (a b : Z) (l : list A) : list A :=
  slice (py_bound (length l) a) (py_bound (length l) b) l.

(** [l[a:]] and [l[:b]] with integer bounds of any sign. *)
Definition py_from {A} (a : Z) (l : list A) : list A :=
  skipn (py_bound (length l) a) l.
Definition py_upto {A} (b : Z) (l : list A) : list A :=
  firstn (py_bound (length l) b) l.

(** In-place replacement of one list element (no change if out of range). *)
Fixpoint upd {A} (i : nat) (x : A) (l : list A) : list A :=
  match l, i with
  | [], _ => []
  | _ :: l', O => x :: l'
  | y :: l', S i' => y :: upd i' x l'
  end.

(** Stable insertion sort by an integer key. *)
Fixpoint insert_by {A} (key : A -> Z) (x : A) (l : list A) : list A :=
  match l with
  | [] => [x]
  | y :: l' => if (key x <=? key y)%Z then x :: l else y :: insert_by key x l'
  end.
Definition isort_by {A} (key : A -> Z) (l : list A) : list A :=
  fold_right (insert_by key) [] l.

(** [np.unique] on a one-dimensional array: sorted, without repetitions. *)
Definition np_unique (l : list Z) : list Z :=
  isort_by (fun x => x) (nodup Z.eq_dec l).

Definition memZ (x : Z) (l : list Z) : bool := existsb (Z.eqb x) l.
Definition memN (x : nat) (l : list nat) : bool := existsb (Nat.eqb x) l.

(** Keep integer arithmetic folded under [simpl]. *)
Arguments Z.add : simpl never.
Arguments Z.sub : simpl never.
Arguments Z.mul : simpl never.
