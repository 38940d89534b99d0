(** Model of the divisor helper: danse_toolbox/d_base.py 2548-2578.  Integer
    arithmetic instead of the floating-point division [n /= i] (exact for all
    [n < 2^53], as the division is only made when [i] divides [n]). *)
From Verif Require Import Base.
Open Scope Z_scope.

(** 2548-2558 [prime_factors]: the loop, with a bound on the number of rounds. *)
Fixpoint pf_loop (fuel : nat) (i n : Z) : res (list Z) :=
  match fuel with
  | O => Err OutOfFuel
  | S fuel' =>
      if i * i <=? n then
        if n mod i =? 0 then do l <- pf_loop fuel' i (n / i); Ok (i :: l)
        else pf_loop fuel' (i + 1) n
      else Ok (if 1 <? n then [n] else [])
  end.
Definition prime_factors (n : Z) : res (list Z) := pf_loop (Z.to_nat (2 * n + 1) + 1) 2 n.

(** [collections.Counter]: number of occurrences, keys in order of appearance. *)
Fixpoint count_in (c : list (Z * nat)) (x : Z) : list (Z * nat) :=
  match c with
  | [] => [(x, 1%nat)]
  | (k, m) :: c' => if k =? x then (k, S m) :: c' else (k, m) :: count_in c' x
  end.
Definition counter (l : list Z) : list (Z * nat) := fold_left count_in l [].

(** [itertools.product] *)
Fixpoint product {A} (ls : list (list A)) : list (list A) :=
  match ls with
  | [] => [[]]
  | l :: ls' => flat_map (fun x => map (cons x) (product ls')) l
  end.

(** 2560-2564 [prod] *)
Definition prod (l : list Z) : Z := fold_left Z.mul l 1.

(** 2566-2578 [get_divisors] *)
Definition powers (fc : Z * nat) : list Z := map (fun i => fst fc ^ Z.of_nat i) (seq 0 (S (snd fc))).
Definition get_divisors (n : Z) : res (list Z) :=
  do pf <- prime_factors n;
  Ok (map prod (product (map powers (counter pf)))).
