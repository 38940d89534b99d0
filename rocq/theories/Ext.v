(** Model of the external (broadcasting) filters: danse_toolbox/d_classes.py
    1627-1694.  Exact real arithmetic; printing left out. *)
From Verif Require Import Base Buffers Cx Batch.
From Coq Require Import Reals.
Open Scope R_scope.

(** filter: [nFreqs x nLocalMic] array *)
Definition coefs := nat -> nat -> cx.

(** Settings: [onlyBroadcastRefSensorSigs], [referenceSensor], single-sensor node
    with [noFusionAtSingleSensorNodes], relaxation off
    ([noExternalFilterRelaxation] or sequential node updating), [expAvgBetaWext],
    [alphaExternalFilters], [timeBtwExternalFiltUpdates]. *)
Record xparams := mkX { xp_ref_only : bool; xp_ref : nat; xp_single : bool; xp_off : bool;
  xp_beta : R; xp_alpha : R; xp_every : R }.

(** State: iteration index, [wTildeExt] of each iteration, [wTildeExtTarget],
    [lastExtFiltUp]. *)
Record xst := mkXS { x_i : nat; x_ext : list coefs; x_target : coefs; x_last : R }.

(** [a * v + b * w], entry by entry *)
Definition lin (a : R) (v : coefs) (b : R) (w : coefs) : coefs := fun f c => (cr a * v f c + cr b * w f c)%cx.

(** 1651-1694; [w] is the local part of the internal filter of iteration [i + 1];
    [t = None] in batch mode.  The iteration index is moved on by the caller (1324). *)
Definition ext_update (p : xparams) (w : coefs) (t : option R) (s : xst) : res xst :=
  let i := x_i s in
  do old <- get (x_ext s) i;
  if xp_ref_only p then
    do l <- put (S i) (fun _ c => if Nat.eqb c (xp_ref p) then cone else czero) (x_ext s);
    Ok (mkXS (S i) l (x_target s) (x_last s))
  else if xp_single p then
    do l <- put (S i) old (x_ext s);
    Ok (mkXS (S i) l (x_target s) (x_last s))
  else if xp_off p then
    do l <- put (S i) w (x_ext s);
    Ok (mkXS (S i) l (x_target s) (x_last s))
  else
    do l <- put (S i) (lin (xp_beta p) old (1 - xp_beta p) (x_target s)) (x_ext s);
    let flag := match t with None => true | Some t => if Rle_dec (xp_every p) (t - x_last s) then true else false end in
    let last := match t with None => x_last s | Some t => if flag then t else x_last s end in
    let target := if flag then lin (1 - xp_alpha p) (x_target s) (xp_alpha p) w else x_target s in
    Ok (mkXS (S i) l target last).

(** A run over the update events of a node (filter, time). *)
Definition ext_run (p : xparams) (evs : list (coefs * option R)) (s : xst) : res xst :=
  foldM (fun s ev => ext_update p (fst ev) (snd ev) s) evs s.
