(** Specification vocabulary for random source signals and impulse responses. *)
From Coq Require Import QArith Qround Reals.
From Verif Require Import Base RandSig.
Local Open Scope R_scope.

(** the value drawn for sample [i] *)
Definition drawn (d : distribution) (lo hi : R) (u : R) : R :=
  match d with
  | Uniform => lo + (hi - lo) * u
  | _ => Rmax (Rabs hi) (Rabs lo) * u
  end.
Definition known (d : distribution) : Prop := d = Uniform \/ d = Normal.

(** Sample [i] (at the rate [fs]) is in one of the regular pauses of [pause] seconds,
    [spacing] seconds apart, the first of which starts after [first] seconds. *)
Definition paused (first pause spacing fs : Q) (i : nat) : Prop :=
  exists k : nat,
    let from := (first * fs + inject_Z (Z.of_nat k) * (spacing * fs + pause * fs))%Q in
    (Qfloor from <= Z.of_nat i < Qfloor (from + pause * fs)%Q)%Z.

(** [y] is the signal [x] of [n] samples silenced on the given stretches (first sample,
    first sample after) *)
Definition silenced (n : nat) (x : nat -> R) (stretches : list (nat * nat)) (y : list R) : Prop :=
  length y = n /\
  forall i, (i < n)%nat ->
    ((exists ab, In ab stretches /\ (fst ab <= i < snd ab)%nat) -> nth i y 0 = 0) /\
    ((forall ab, In ab stretches -> ~ (fst ab <= i < snd ab)%nat) -> nth i y 0 = x i).

(** number of the samples [0..n-1] lying in one of the stretches *)
Definition covered (n : nat) (stretches : list (nat * nat)) : nat :=
  length (filter (fun i => existsb (fun ab => Nat.leb (fst ab) i && Nat.ltb i (snd ab)) stretches) (seq 0 n)).

(** sample [t] of a random impulse response from the draws [us] *)
Definition ir_value (p : rir_params) (fs : Q) (us : nat -> R) (t : nat) : R :=
  let x i := drawn (ir_distribution p) (ir_min p) (ir_max p) (us i) in
  match ir_decay p with
  | NoDecay => x t
  | ExponentialDecay => x t * exp (- (INR t / Q2R fs) / Q2R (ir_tau p))
  | ImmediateDecay => match t with O => Rabs (x 0%nat) | _ => 0 end
  end.
