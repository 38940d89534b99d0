(** Specification vocabulary for the network-wide filters. *)
From Verif Require Import Base CentrSpec Cx Netwide.
From Coq Require Import Reals.
Local Open Scope R_scope.

(** [a^H y] *)
Definition dotH (a y : list cx) : cx := csum (length y) (fun c => conj (nth c a czero) * nth c y czero)%cx.
Definition lsum (l : list cx) : cx := fold_right cadd czero l.
Definition average (F : nat) (f : nat -> cx) : cx := (cr (/ INR F) * csum F f)%cx.

Section Net.
  Variable ti : bool.                  (* topology-independent variant *)
  Variables filters ext : list arr3.   (* internal and external filters of the nodes *)
  Variable ys : list (list cx).        (* sensor signals of the nodes, one bin *)
  (** what node [q] sends at bin [b] with its external filters of iteration [i]; in the
      topology-independent variant they are divided by the last coefficient *)
  Definition sent (b i q : nat) : cx :=
    let y := nth q ys [] in let n := length y in let e := at3 (nth q ext a0) b i in
    dotH (map (fun m => if ti then cdiv (e m) (e n) else e m) (seq 0 n)) y.
  (** what node [k] filters: its own signals, then what the others sent, each or summed *)
  Definition observed (b i k : nat) : list cx :=
    nth k ys [] ++ (let z := map (sent b i) (others (length ys) k) in if ti then [lsum z] else z).
  (** internal filter of node [k]: local coefficients of iteration [i], coefficients of
      the received signals of iteration [j] *)
  Definition internal (b i j k : nat) : list cx :=
    map (fun c => at3 (nth k filters a0) b (if Nat.ltb c (length (nth k ys [])) then i else j) c) (seq 0 (dC (nth k filters a0))).
  (** arrays of the shapes of the algorithm: [F] bins, [I] iterations *)
  Definition net_shapes (F I : nat) : Prop :=
    length filters = length ys /\ length ext = length ys /\
    forall q, (q < length ys)%nat ->
      let w := nth q filters a0 in let e := nth q ext a0 in let n := length (nth q ys []) in
      dF w = F /\ dI w = I /\ dC w = (if ti then n + 1 else n + (length ys - 1))%nat /\
      dF e = F /\ dI e = I /\ dC e = (if ti then n + 1 else n)%nat.
End Net.
