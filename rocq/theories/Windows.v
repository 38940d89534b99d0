(** Model of the analysis and synthesis windows (danse_toolbox/d_base.py 337-355). *)
From Verif Require Import Base.
From Coq Require Import Reals.
Local Open Scope R_scope.

Inductive win_type := SqrtHann | Rect | RectNormNs | OtherWin.

(** [np.hanning] *)
Definition np_hanning (M : nat) : list R :=
  if Nat.eqb M 1 then [1]
  else map (fun i => 1 / 2 + 1 / 2 * cos (PI * (1 - INR M + 2 * INR i) / (INR M - 1))) (seq 0 M).

(** 340-347 and 348-355; [ovlp] is [WOLAovlp] *)
Definition window (ty : win_type) (M : nat) (ovlp : R) : res (list R) :=
  match ty with
  | SqrtHann => Ok (map sqrt (np_hanning M))
  | Rect => Ok (repeat 1 M)
  | RectNormNs => Ok (repeat (1 * sqrt ovlp) M)
  | OtherWin => Err ValueError
  end.
