(** Model of batch DANSE (fully connected): danse_toolbox/d_core.py 287-328 with
    d_batch.py 127-139 and d_classes.py 2290-2311.  The correlation matrices of a
    node are a function of the external filters of all the nodes at their present
    iterations (d_base.py 2515-2540: only those filters and fixed signals enter),
    the filter formula and the external filter rule are parameters.  Estimation of
    the desired signals and MMSE costs, which change no filter, are left out. *)
From Verif Require Import Base Buffers.
Set Implicit Arguments.
Open Scope nat_scope.

Section Batch.
  (** correlation matrices, filters, external filters *)
  Variables M W E : Type.
  (** 127-139: matrices of node [k] given everyone's external filters *)
  Variable covmats : list E -> nat -> M.
  (** 2303-2308: the filter update function of node [k] *)
  Variable solve : nat -> M -> W.
  (** 1627-1694: external filter of node [k] for the next iteration from that of
      the present iteration and the new internal filter *)
  Variable ext_rule : nat -> E -> W -> E.

  (** Node: iteration index, internal and external filter of each iteration. *)
  Record bnode := mkBN { b_i : nat; b_w : list W; b_ext : list E }.

  Definition put {A} (i : nat) (a : A) (l : list A) : res (list A) :=
    if Nat.ltb i (length l) then Ok (upd i a l) else Err IndexError.

  (** 299-311, 321-327: one node, given its matrices; [up] says whether it updates. *)
  Definition batch_node (k : nat) (up : bool) (m : M) (b : bnode) : res bnode :=
    do b1 <-
      (if up then
         do w' <- put (S (b_i b)) (solve k m) (b_w b);
         Ok (mkBN (b_i b) w' (b_ext b))
       else
         do w <- get (b_w b) (b_i b);
         do w' <- put (S (b_i b)) w (b_w b);
         do e <- get (b_ext b) (b_i b);
         do e' <- put (S (b_i b)) e (b_ext b);
         Ok (mkBN (b_i b) w' e'));
    do w <- get (b_w b1) (S (b_i b1));
    do e <- get (b_ext b1) (b_i b1);
    do e' <- put (S (b_i b1)) (ext_rule k e w) (b_ext b1);
    Ok (mkBN (S (b_i b1)) (b_w b1) e').

  Definition exts (bs : list bnode) : res (list E) := mapM (fun b => get (b_ext b) (b_i b)) bs.

  (** 294-311 / 317-327: one iteration; [up k]: node [k] updates. *)
  Definition batch_iter (up : nat -> bool) (bs : list bnode) : res (list bnode) :=
    do es <- exts bs;
    mapM (fun kb => batch_node (fst kb) (up (fst kb)) (covmats es (fst kb)) (snd kb)) (combine (seq 0 (length bs)) bs).

  (** 289-313: sequential updating: [iters] iterations left, [upn] the updating node. *)
  Fixpoint batch_seq (iters upn : nat) (bs : list bnode) : res (list bnode) :=
    match iters with
    | O => Ok bs
    | S it => do bs' <- batch_iter (Nat.eqb upn) bs; batch_seq it ((upn + 1) mod length bs) bs'
    end.

  (** 314-327: simultaneous and asynchronous updating. *)
  Fixpoint batch_sim (iters : nat) (bs : list bnode) : res (list bnode) :=
    match iters with
    | O => Ok bs
    | S it => do bs' <- batch_iter (fun _ => true) bs; batch_sim it bs'
    end.
End Batch.
