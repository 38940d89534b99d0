(** Model of the time-domain approximation of the WOLA filtering
    (danse_toolbox/d_base.py 1940-1991). *)
From Verif Require Import Base Cx Wola ChunkSpec.
From Coq Require Import Reals.
Local Open Scope R_scope.

(** [sla.circulant(np.flip(w))] (1980): row [i], column [j] is element
    [(i - j) mod n] of the flipped vector. *)
Definition circulant_flip (n : nat) (w : list R) (i j : nat) : R :=
  nth (n - 1 - ((i + n - j) mod n))%nat w 0.

(** [np.trace(A, ofst)] (1941-1945) of an [n x n] matrix, for offset
    [m - (n - 1)]: the sum of the entries [(i, j)] with [j - i] that offset. *)
Definition trace_at (n : nat) (A : nat -> nat -> R) (m : nat) : R :=
  sumR n (fun i => sumR n (fun j => if Nat.eqb (j + (n - 1))%nat (i + m)%nat then A i j else 0)).

(** 1976-1989 for one channel ([wHat] a column): [R] is the hop.  Lengths of the
    windows: [n = len(h)]; [f] of another length makes the product of line 1981
    fail. *)
Definition dist_one (h f : list R) (hop : nat) (wHat : list cx) : res (list R) :=
  let n := length h in
  do b <- back_to_time_domain (map conj wHat) n;
  if negb (Nat.eqb (length f) n) then Err ValueError
  else
    let wTD := map re (snd b) in
    let A := fun i j => nth i f 0 * circulant_flip n wTD i j * nth j h 0 in
    Ok (map (fun m => trace_at n A m / INR hop) (seq 0 (2 * n - 1))).

(** 1948-1991 [dist_fct_approx]; [wHat] and the result channel by channel. *)
Definition dist_fct_approx (h f : list R) (hop : nat) (wHat : list (list cx)) : res (list (list R)) :=
  mapM (dist_one h f hop) wHat.
