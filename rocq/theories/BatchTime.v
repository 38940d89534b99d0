(** Model of the transforms of whole signals and of the time-domain estimates of batch runs
    and of the best performance reference: danse_toolbox/d_base.py 2284-2364 ([get_stft],
    [get_istft]), d_batch.py 37-50, 66-75, 95-125 ([get_centralized_estimates]), 141-204
    ([batch_estimate], [get_istft], [get_mmse_cost]), d_classes.py 389 and 492 ([nIter]).

    [scipy.signal.stft] and [istft] are modelled after their documentation and source:
    scaling 'spectrum', zero padding to a whole number of frames, no boundary, overlap-add
    divided by the sum of squared windows where it exceeds 1e-10.  The frame length is even
    ([L = 2 q]); [H] is the hop ([Ns]); real numbers instead of floats, in particular
    [int(ovlp * len(win))] is exactly [L - H]. *)
From Verif Require Import Base Cx ChunkSpec Scm.
From Coq Require Import Reals.
Local Open Scope R_scope.

(** Number of zeros appended by [stft] and number of frames (ValueError: window longer than
    the signal). *)
Definition appended (L H N : Z) : Z := ((- (N - L)) mod H) mod L.
Definition stft_frames (L H N : nat) : res nat :=
  if Nat.ltb N L then Err ValueError
  else Ok (Z.to_nat ((Z.of_nat N + appended (Z.of_nat L) (Z.of_nat H) (Z.of_nat N) - (Z.of_nat L - Z.of_nat H)) / Z.of_nat H)).
(** d_classes.py 389, 492: [int((N - L) / H) + 1] *)
Definition n_iter (L H N : nat) : nat := Z.to_nat (Z.quot (Z.of_nat N - Z.of_nat L) (Z.of_nat H) + 1).

Section Transform.
  (** half the frame length, hop, window *)
  Variables (q H : nat) (w : nat -> R).
  Let L := (2 * q)%nat.
  Definition wsum : R := sumR L w.

  (** A signal of [N] samples followed by zeros *)
  Definition padded (N : nat) (x : nat -> R) (n : nat) : R := if Nat.ltb n N then x n else 0.
  (** One-sided [stft] (frequencies up to [q]), times the sum of the window (d_classes.py
      444-449, 923-931) *)
  Definition stft (N : nat) (x : nat -> R) (t f : nat) : cx :=
    (dft L (fun m => cr (padded N x (t * H + m) * w m)) f * cr (/ wsum))%cx.
  Definition y_stft (N : nat) (x : nat -> R) (t f : nat) : cx := (stft N x t f * cr wsum)%cx.

  (** [irfft]: the parts of the first and last coefficients that a real signal cannot have
      are ignored *)
  Definition mirrored (X : nat -> cx) (k : nat) : cx :=
    if Nat.eqb k 0 || Nat.eqb k q then cr (re (X k))
    else if Nat.ltb k q then X k else conj (X (L - k)%nat).
  Definition irfft (X : nat -> cx) (m : nat) : R := re (idft L (mirrored X) m).

  (** Frame [t] covers sample [n] *)
  Definition covers (t n : nat) : bool := Nat.leb (t * H) n && Nat.ltb n (t * H + L).
  Definition energy (F n : nat) : R := sumR F (fun t => if covers t n then w (n - t * H) * w (n - t * H) else 0).
  (** [istft] of [F] frames at sample [n], [n < L + (F - 1) * H] *)
  Definition istft (F : nat) (X : nat -> nat -> cx) (n : nat) : R :=
    sumR F (fun t => if covers t n then irfft (X t) (n - t * H) * wsum * w (n - t * H) else 0)
    / (if Rlt_dec (/ 10 ^ 10) (energy F n) then energy F n else 1).

  (** d_batch.py 154-185 and the division by the sum of the window, assigned to a column of
      [N] samples: longer results do not fit *)
  Definition to_time (N F : nat) (X : nat -> nat -> cx) : res (list R) :=
    let len := (L + (F - 1) * H)%nat in
    if Nat.ltb N len then Err ValueError
    else Ok (map (fun n => (if Nat.ltb n len then istft F X n else 0) / wsum) (seq 0 N)).

  (** [einsum('ik,ijk->ij', g.conj(), y)]: [C] channels [x], filter [g] (frequency, channel) *)
  Definition combine_channels (N C : nat) (x : nat -> nat -> R) (g : nat -> nat -> cx) (t f : nat) : cx :=
    csum C (fun c => (conj (g f c) * y_stft N (x c) t f)%cx).

  (** d_batch.py 107-119: the estimate of the best performance reference *)
  Definition best_estimate (N C : nat) (x : nat -> nat -> R) (g : nat -> nat -> cx) : res (list R) :=
    do F <- stft_frames L H N;
    let I := n_iter L H N in
    if Nat.eqb F I || Nat.eqb F (I + 1) then to_time N I (combine_channels N C x g) else Err UnboundLocalError.

  (** d_batch.py 41-50, 66-75, 141-152: the estimates of batch runs leave the last frame out;
      numpy repeats a single frame, other numbers do not fit *)
  Definition batch_estimate (N C : nat) (x : nat -> nat -> R) (g : nat -> nat -> cx) : res (list R) :=
    do F <- stft_frames L H N;
    let I := n_iter L H N in
    if Nat.eqb (F - 1) I then to_time N I (combine_channels N C x g)
    else if Nat.eqb (F - 1) 1 then to_time N I (fun _ => combine_channels N C x g 0)
    else Err ValueError.
End Transform.

(** d_batch.py 187-204: mean squared error between the clean reference signal and the
    estimate, without [cut] samples ([truncateBeg], [truncateEnd]: 1000) at both ends;
    [None]: the mean over no samples is NaN *)
Definition mse_cost (cut : nat) (s d : list R) : option R :=
  let inner l := slice cut (length l - cut) l in
  match inner s with
  | [] => None
  | _ => Some (sumR (length (inner s)) (fun i => (nth i (inner s) 0 - nth i (inner d) 0) * (nth i (inner s) 0 - nth i (inner d) 0)) / INR (length (inner s)))
  end.
