(** Correlation matrices and filter formulas over the complex numbers (exact
    arithmetic instead of floating point).  An array with frequency, row and
    column axes is a function of the three indices, next to its size. *)
From Verif Require Import Base Cx Filt.
From Coq Require Import Reals.
Open Scope R_scope.

(** [nFreqs x n x n] arrays (correlation matrices), and observation frames: number
    of channels and [nFreqs x n] entries. *)
Definition tens := nat -> nat -> nat -> cx.
Definition obs := (nat * (nat -> nat -> cx))%type.

(** d_classes.py 2084: [1 / y.shape[1] * einsum('ij,ik->ijk', y, y.conj())]. *)
Definition outer (y : obs) : tens :=
  fun f i j => (cr (/ INR (fst y)) * (snd y f i * conj (snd y f j)))%cx.

(** 2086, 2088: [beta * R + (1 - beta) * yyH]. *)
Definition avg (beta : R) (r s : tens) : tens :=
  fun f i j => (cr beta * r f i j + cr (1 - beta) * s f i j)%cx.

(** 3272-3303 [update_covmats_batch]: [y] lists the frames ([nFreqs x nMics]);
    a VAD of another length (after cropping) is an IndexError; the mean over no
    frames ([None]) is an array of NaN. *)
Definition mean_outer (ys : list (nat -> nat -> cx)) : option tens :=
  match ys with
  | [] => None
  | _ => Some (fun f i j => (cr (/ INR (length ys)) * csum (length ys) (fun t => nth t ys (fun _ _ => czero) f i * conj (nth t ys (fun _ _ => czero) f j)))%cx)
  end.
Definition select (b : bool) (vad : list bool) (ys : list (nat -> nat -> cx)) : list (nat -> nat -> cx) :=
  map snd (filter (fun vy => Bool.eqb (fst vy) b) (combine vad ys)).
Definition covmats_batch (ys : list (nat -> nat -> cx)) (vad : list bool) : res (option tens * option tens) :=
  let vad' := if Nat.ltb (length ys) (length vad) then firstn (length ys) vad else vad in
  if Nat.eqb (length vad') (length ys) then Ok (mean_outer (select true vad' ys), mean_outer (select false vad' ys))
  else Err IndexError.

(** ** Filter formulas, at one frequency: [n x n] matrices and vectors *)
Definition mat := nat -> nat -> cx.
Definition vec := nat -> cx.
Definition mvec (n : nat) (a : mat) (x : vec) : vec := fun i => csum n (fun j => a i j * x j)%cx.
Definition mmul (n : nat) (a b : mat) : mat := fun i j => csum n (fun k => a i k * b k j)%cx.
Definition msub (a b : mat) : mat := fun i j => (a i j - b i j)%cx.
Definition mherm (a : mat) : mat := fun i j => conj (a j i).
(** [Evect] *)
Definition unit_vec (r : nat) : vec := fun i => if Nat.eqb i r then cone else czero.

(** 3320-3340 [update_w] / d_base.py 1994-2025 at one frequency; [inv] is the
    value of [np.linalg.inv(Ryy)]. *)
Definition update_w (n ref : nat) (inv ryy rnn : mat) : vec := mvec n inv (mvec n (msub ryy rnn) (unit_vec ref)).

(** 3343-3387 [update_w_gevd] at one frequency; [sig], [x] are the generalised
    eigenvalues and eigenvectors of [sla.eigh(Ryy, Rnn)] after reordering, [q] is
    [inv(Xmat^H)]. *)
Definition dmat (rank : nat) (sig : nat -> R) : mat :=
  fun i j => if Nat.eqb i j && Nat.ltb i rank then cr (1 - 1 / sig i) else czero.
Definition update_w_gevd (n ref rank : nat) (sig : nat -> R) (x q : mat) : vec :=
  fun i => mmul n (mmul n x (dmat rank sig)) (mherm q) i ref.
