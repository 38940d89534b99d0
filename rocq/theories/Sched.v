(** Model of the event scheduler: danse_toolbox/d_base.py, lines 574-1388. *)
From Verif Require Import Base.
Open Scope Z_scope.

(** d_base.py 1059-1065 (eventsCodesDict): the five event types.  The integer
    code is the priority of the event type. *)
Inductive evtype := Tr | Fu | Bc | Re | Up.

Definition evcode (e : evtype) : Z :=
  match e with Tr => -1 | Fu => 0 | Bc => 1 | Re => 2 | Up => 3 end.

Definition evtype_eqb (a b : evtype) : bool := evcode a =? evcode b.

(** d_base.py 1059-1065: second component of the dictionary entries, "ds"
    (downstream) or "us" (upstream). *)
Definition is_ds (e : evtype) : bool :=
  match e with Tr | Fu | Bc => true | Re | Up => false end.

(** Iteration order of the dictionary keys (insertion order). *)
Definition evkeys : list evtype := [Tr; Fu; Bc; Re; Up].

(** One row of the flattened event array: [:,0] instant, [:,1] node index,
    [:,2] event reference (d_base.py 1023-1029). *)
Record event := mkEv { ev_t : Z; ev_node : nat; ev_type : evtype }.

(** d_base.py 1010-1044 [_flatten_instants].  An empty outer list means "no
    instants"; otherwise the list is indexed by every node index < K. *)
Definition flatten_instants (K : nat) (t : list (list Z)) (ty : evtype)
  : res (list event) :=
  match t with
  | [] => Ok []
  | _ =>
    do rows <- mapM (fun k => do tk <- get t k;
                              Ok (map (fun x => mkEv x k ty) (np_unique tk)))
                    (seq 0 K);
    Ok (concat rows)
  end.

(** d_base.py 1337-1388 [events_groupping_check]; the [while] loop (1371-1384).
    [evs] is the sorted event array, [acc] the (node, type) pairs collected so
    far, in order.  The fuel bounds the number of iterations. *)
Fixpoint group_loop (fuel : nat) (evs : list event) (numEv evIdx : nat)
    (curr_t next_t : Z) (acc : list (nat * evtype))
  : res (nat * list (nat * evtype)) :=
  match fuel with
  | O => Err OutOfFuel
  | S fuel' =>
    if curr_t =? next_t then
      let evIdx := S evIdx in
      do e <- get evs evIdx;
      let curr_t := ev_t e in
      let acc := acc ++ [(ev_node e, ev_type e)] in
      if (Z.of_nat evIdx <? Z.of_nat numEv - 1) then
        do e' <- get evs (S evIdx);
        group_loop fuel' evs numEv evIdx curr_t (ev_t e') acc
      else Ok (S evIdx, acc)                       (* line 1381-1382: break *)
    else Ok (S evIdx, acc)                         (* line 1383-1384: while-else *)
  end.

(** d_base.py 1337-1388 [events_groupping_check]. *)
Definition events_groupping_check (evs : list event) (numEv evIdx : nat)
    (acc : list (nat * evtype)) : res (nat * list (nat * evtype)) :=
  do e <- get evs evIdx;
  let curr_t := ev_t e in
  if (Z.of_nat evIdx <? Z.of_nat numEv - 1) then
    do e' <- get evs (S evIdx);
    group_loop (S numEv) evs numEv evIdx curr_t (ev_t e') acc
  else Ok (S evIdx, acc).

(** Leaf-to-root ordering: one list of node indices per tree level.  The code
    stores a bare integer for the root level (classes.py 560); it is the
    one-element level here. *)
Definition ordering := list (list nat).

(** d_base.py 1262-1295 [_compile_indices]: events of one type reordered along
    the levels of [o]; each level is sorted by node index first (line 1291). *)
Definition compile_indices (evs : list (nat * evtype)) (o : ordering)
  : list (nat * evtype) :=
  flat_map (fun level =>
    flat_map (fun k => filter (fun e => Nat.eqb (fst e) k) evs)
             (isort_by Z.of_nat level)) o.

(** Events of one type (lines 1304, 1315, 1328). *)
Definition of_type (ty : evtype) (evs : list (nat * evtype)) :=
  filter (fun e => evtype_eqb (snd e) ty) evs.

(** d_base.py 1228-1334 [sort_simultaneous_events], acting on the (node, type)
    pairs directly instead of returning indices into them (the caller applies
    the indices at 1153-1154). *)
Definition sort_simultaneous_events (evs : list (nat * evtype)) (ti : bool)
    (o : ordering) : list (nat * evtype) :=
  if ti then
    flat_map (fun key => compile_indices (of_type key evs) o)
             (filter is_ds evkeys)
    ++ flat_map (fun key => compile_indices (of_type key evs) (rev o))
             (filter (fun k => negb (is_ds k)) evkeys)
  else
    flat_map (fun key => isort_by (fun e => Z.of_nat (fst e)) (of_type key evs))
             evkeys.

(** One element of the schedule (DANSEeventInstant): instant, (node, type) of
    each event in processing order, and the bypass flag of each event. *)
Record instant := mkInst {
  in_t : Z;
  in_evs : list (nat * evtype);
  in_byp : list bool
}.

(** Loop-carried state of the bypass logic (lines 1107-1112). *)
Record bypst := mkByp { lastUpNode : Z; nFrames : Z }.

(** d_base.py 1167-1183: bypass flag of one event, given the counter after the
    increment of line 1164. *)
Definition bypass_one (isseq : bool) (nNodes : nat) (minFrames : Z)
    (lastUp : Z) (nFr : Z) (e : nat * evtype) : bool :=
  match snd e with
  | Up =>
    if nFr <? minFrames then true
    else if isseq then
      negb (Z.of_nat (fst e) =? (lastUp + 1) mod (Z.of_nat nNodes))
    else false
  | _ => false
  end.

(** d_base.py 1166-1187: value of [lastUpNodeUpdated] after the loop (only the
    branch of line 1178-1180 writes it). *)
Definition last_up_updated (isseq : bool) (nNodes : nat) (minFrames : Z)
    (lastUp : Z) (nFr : Z) (evs : list (nat * evtype)) : Z :=
  fold_left (fun acc e =>
    match snd e with
    | Up =>
      if nFr <? minFrames then acc
      else if isseq then
        if Z.of_nat (fst e) =? (lastUp + 1) mod (Z.of_nat nNodes)
        then Z.of_nat (fst e) else acc
      else acc
    | _ => acc
    end) evs lastUp.

Definition is_up (e : nat * evtype) : bool := evtype_eqb (snd e) Up.

(** d_base.py 1160-1187: bypass flags of one group of simultaneous events and
    the new loop-carried state. *)
Definition bypass_step (isseq : bool) (nNodes : nat) (minFrames : Z)
    (st : bypst) (evs : list (nat * evtype)) : bypst * list bool :=
  if existsb is_up evs then
    let nFr := nFrames st + 1 in
    let byp := map (bypass_one isseq nNodes minFrames (lastUpNode st) nFr) evs in
    let allByp := forallb (fun p => negb (is_up (fst p)) || snd p)
                          (combine evs byp) in
    let nFr' := if negb allByp then 0 else nFr in
    (mkByp (last_up_updated isseq nNodes minFrames (lastUpNode st) nFr evs) nFr',
     byp)
  else (st, map (fun _ => false) evs).

(** Loop-carried state of the tree-formation logic (lines 1113-1115). *)
Record treest := mkTree { treeCounter : Z; lastTreeInstant : option Z }.

(** d_base.py 1123-1131: tree-formation counter and ordering in force. *)
Definition tree_step (ti : bool) (tr_instants : list Z)
    (orderings : list ordering) (st : treest) (t : Z)
  : res (treest * ordering) :=
  if ti then
    let st' :=
      if memZ t tr_instants &&
         negb (match lastTreeInstant st with Some u => t =? u | None => false end)
      then mkTree (treeCounter st + 1) (Some t) else st in
    do o <- py_get orderings (treeCounter st');
    Ok (st', o)
  else Ok (st, []).

(** d_base.py 1116-1198: the main [while] loop over the sorted event array. *)
Fixpoint build_loop (fuel : nat) (evs : list event) (numEv : nat)
    (ti : bool) (tr_instants : list Z) (orderings : list ordering)
    (isseq : bool) (nNodes : nat) (minFrames : Z)
    (evIdx : nat) (bst : bypst) (tst : treest) : res (list instant) :=
  if (evIdx <? numEv)%nat then
    match fuel with
    | O => Err OutOfFuel
    | S fuel' =>
      do e <- get evs evIdx;
      do (tst', o) <- tree_step ti tr_instants orderings tst (ev_t e);
      do (evIdx', group) <-
         events_groupping_check evs numEv evIdx [(ev_node e, ev_type e)];
      let sorted := sort_simultaneous_events group ti o in
      let (bst', byp) := bypass_step isseq nNodes minFrames bst sorted in
      do rest <- build_loop fuel' evs numEv ti tr_instants orderings isseq
                   nNodes minFrames evIdx' bst' tst';
      Ok (mkInst (ev_t e) sorted byp :: rest)
    end
  else Ok [].

(** d_base.py 962-1225 [build_events_matrix].  [tsort] is the effect of
    [np.argsort] on the instants (lines 1099-1100): numpy's default sort is not
    stable, so it is left as a parameter that theorems only assume to return a
    permutation sorted by instant.  Plotting (1200-1223) is not modelled. *)
Definition build_events_matrix (tsort : list event -> list event)
    (up_t bc_t fuse_t re_t tr_t : list (list Z)) (orderings : list ordering)
    (isseq : bool) (firstUpdatingNode : nat) (minFrames : Z)
  : res (list instant) :=
  let nNodes := length up_t in
  let ti := existsb (fun ts => negb (Nat.eqb (length ts) 0)) fuse_t
            && Nat.eqb (length fuse_t) nNodes in
  do upI <- flatten_instants nNodes up_t Up;
  do bcI <- flatten_instants nNodes bc_t Bc;
  do fuI <- (if ti then flatten_instants nNodes fuse_t Fu else Ok []);
  do reI <- (if ti then flatten_instants nNodes re_t Re else Ok []);
  do trI <- (if ti then flatten_instants nNodes tr_t Tr else Ok []);
  let numEv := (length upI + length bcI + length fuI + length reI
                + length trI)%nat in
  let evs := tsort (trI ++ upI ++ bcI ++ fuI ++ reI) in
  build_loop numEv evs numEv ti (map ev_t trI) orderings isseq nNodes minFrames
    0 (mkByp (Z.of_nat firstUpdatingNode - 1) 0) (mkTree (-1) None).

(** ** Instants *)

(** d_base.py 892-920 [generate_aligned_instants] for one node.  [nominal] are
    the nominal instants computed at 902-905; [ts] are the node's sample
    instants.  [instants[-1]] raises IndexError on an empty timestamp vector. *)
Definition align_future (ts : list Z) (x : Z) : res Z :=
  if memZ x ts then Ok x
  else match filter (fun u => x <? u) ts with
       | u :: _ => Ok u
       | [] => py_get ts (-1)
       end.
Definition align_instants (ts nominal : list Z) : res (list Z) :=
  mapM (align_future ts) nominal.

(** [np.arange(start, stop) * sep] where [start] may be fractional: the sample
    positions [s0, s0+sep, ...] smaller than [stop*sep], with
    [s0 = start*sep] (lines 902-905, before the division by fs). *)
Definition arange_samples (s0 sep stop : Z) : list Z :=
  map (fun i => s0 + Z.of_nat i * sep)
      (seq 0 (Z.to_nat (Z.max 0 ((stop * sep - s0 + (sep - 1)) / sep)))).

(** A node for the scheduler: sample period in ticks of the common clock
    (1/fs), sample instants, neighbours. *)
Record snode := mkNode {
  period : Z;
  stamps : list Z;
  nbrs : list nat
}.

(** d_base.py 892-920 for one node: first event at sample [s0], one event every
    [sep] samples, as long as the event index is smaller than [n]. *)
Definition aligned_of (nd : snode) (s0 sep n : Z) : res (list Z) :=
  align_instants (stamps nd) (map (fun s => s * period nd) (arange_samples s0 sep n)).

(** d_base.py 741-748 / 841-848: union of the neighbours' update instants,
    sorted (repetitions are filtered at 746/846). *)
Definition union_up (up : list (list Z)) (ns : list nat) : res (list Z) :=
  do ls <- mapM (get up) ns;
  Ok (isort_by (fun x => x)
       (fold_left (fun acc x => if memZ x acc then acc else acc ++ [x])
                  (concat ls) [])).

(** [instants[L::L]] (lines 753, 853): every L-th element from index L on. *)
Fixpoint every_aux {A} (fuel L : nat) (l : list A) : list A :=
  match fuel with
  | O => []
  | S f => match l with
           | [] => []
           | x :: _ => x :: every_aux f L (skipn L l)
           end
  end.
Definition step_slice {A} (L : nat) (l : list A) : list A :=
  every_aux (length l) L (skipn L l).

(** d_base.py 754-763 / 854-863: latest possible instant strictly before, or
    the first possible instant.  [possibleBcInstants[0]] raises IndexError if
    there is none. *)
Definition align_past (poss : list Z) (x : Z) : res Z :=
  if memZ x poss then Ok x
  else match filter (fun u => u <? x) poss with
       | [] => get poss 0
       | l => py_get l (-1)
       end.

Definition efficient_bc (nd : snode) (L : nat) (up : list (list Z))
  : res (list Z) :=
  do u <- union_up up (nbrs nd);
  mapM (align_past (step_slice L (stamps nd))) u.

(** d_base.py 923-959 [get_sequential_update_instants].  [np.amax] raises
    ValueError on an empty array. *)
Fixpoint amax_aux (l : list Z) (m : Z) : Z :=
  match l with [] => m | x :: l' => amax_aux l' (Z.max m x) end.
Definition amax (l : list Z) : res Z :=
  match l with [] => Err ValueError | x :: l' => Ok (amax_aux l' x) end.

Fixpoint seq_up_loop (fuel : nat) (up : list (list Z)) (curr : Z) (node : nat)
    (accT : list Z) (accN : list nat) : res (list Z * list nat) :=
  match fuel with
  | O => Err OutOfFuel
  | S fuel' =>
    do un <- get up node;
    do m <- amax un;
    if curr <? m then
      do c <- get (filter (fun x => curr <? x) un) 0;
      let accT := accT ++ [c] in
      if c <? m then
        let node := (S node mod length up)%nat in
        seq_up_loop fuel' up c node accT (accN ++ [node])
      else seq_up_loop fuel' up c node accT accN
    else Ok (accT, accN)
  end.

Definition total_len (up : list (list Z)) : nat := length (concat up).

Definition get_sequential_update_instants (up : list (list Z)) (start : nat)
  : res (list Z * list nat) :=
  seq_up_loop (S (total_len up)) up 0 start [] [start].

(** ** Preparation of the schedule: d_base.py 647-889 [prep_evmat_build] *)

(** The fields of DANSEparameters that the scheduler reads.  [ti]: 'topo-indep'
    in nodeUpdating; [isseq]: 'seq' in nodeUpdating; [whole]: 'wholeChunk' in
    broadcastType (otherwise 'fewSamples'). *)
Record sparams := mkP {
  p_N : Z;               (* DFTsize *)
  p_Ns : Z;              (* hop *)
  p_L : Z;               (* broadcastLength *)
  p_whole : bool;
  p_efficient : bool;    (* efficientSpSBC *)
  p_ti : bool;
  p_seq : bool;
  p_keepTree : bool;     (* keepOriginalTree *)
  p_start : nat;         (* seqUpdateStartNodeIdx *)
  p_every : Z            (* updateEvery *)
}.

Record prep := mkPrep {
  pr_up : list (list Z);
  pr_fu : list (list Z);
  pr_bc : list (list Z);
  pr_re : list (list Z);
  pr_tr : list (list Z);
  pr_orderings : list ordering;
  pr_trees : list nat    (* root of each element of wasnObjList *)
}.

Definition cdiv (a b : Z) : Z := (a + b - 1) / b.

(** Lines 548-549, 679: [floor(Ttot * fs / Ns)] with [Ttot] the last sample
    instant; in ticks, [Ttot * fs = Ttot / period]. *)
Definition num_in_total (nd : snode) (len : Z) : res Z :=
  do last <- py_get (stamps nd) (-1);
  Ok (last / (period nd * len)).

(** Lines 709-736, 816-836: the update instants of one node. *)
Definition up_of (p : sparams) (nd : snode) : res (list Z) :=
  do n <- num_in_total nd (p_Ns p);
  let mult := if p_ti p && p_whole p then 2 else 1 in
  aligned_of nd (cdiv (mult * p_N p) (p_Ns p) * p_Ns p) (p_Ns p) n.

(** Lines 716-722, 806-812 (whole chunks: start at DFTsize/L, i.e. sample
    DFTsize since then L = Ns) and 765-771, 865-871 (few samples: start at
    event 1, i.e. sample L). *)
Definition bc_of (p : sparams) (up : list (list Z)) (nd : snode)
  : res (list Z) :=
  do n <- num_in_total nd (p_L p);
  if p_whole p then aligned_of nd (p_N p) (p_Ns p) n
  else if p_efficient p then efficient_bc nd (Z.to_nat (p_L p)) up
  else aligned_of nd (p_L p) (p_L p) n.

(** Line 788: [trInstants[upNodeIndices == k]]; numpy raises IndexError when
    the boolean mask has not the length of the array. *)
Definition mask_select (ts : list Z) (ix : list nat) (k : nat) : res (list Z) :=
  if Nat.eqb (length ts) (length ix)
  then Ok (map fst (filter (fun p => Nat.eqb (snd p) k) (combine ts ix)))
  else Err IndexError.

(** Lines 647-889.  [ordering_of k] and the tree rooted at [k] stand for
    [prune_wasn_to_tree(wasnObj, forcedRoot=k)] (line 695). *)
Definition prep_evmat_build (p : sparams) (nodes : list snode)
    (ordering_of : nat -> ordering) : res prep :=
  let n := length nodes in
  do up <- mapM (up_of p) nodes;
  do bc <- mapM (bc_of p up) nodes;
  if p_ti p then
    do (trI, ix) <-
      (if p_seq p && negb (p_keepTree p) then
         do (s, ix) <- get_sequential_update_instants up (p_start p);
         do _ <- get s 0;                     (* line 783: trInstants[0] = 0 *)
         Ok (upd 0 0 s, ix)
       else Ok ([0], [p_start p]));
    do tr <- mapM (mask_select trI ix) (seq 0 n);
    let roots := map (fun i => (p_start p + i) mod n)%nat (seq 0 (length trI)) in
    Ok (mkPrep up bc bc bc tr (map ordering_of roots) roots)
  else
    Ok (mkPrep up (map (fun _ => []) nodes) bc (map (fun _ => []) nodes)
               (map (fun _ => []) nodes) [] []).

(** d_base.py 513-571 [initialize_events] without the clock checks (500-508). *)
Definition initialize_events (tsort : list event -> list event)
    (p : sparams) (nodes : list snode) (ordering_of : nat -> ordering)
  : res (list instant * list nat) :=
  do pr <- prep_evmat_build p nodes ordering_of;
  do out <- build_events_matrix tsort (pr_up pr) (pr_bc pr) (pr_fu pr)
              (pr_re pr) (pr_tr pr) (pr_orderings pr) (p_seq p) (p_start p)
              (p_every p);
  Ok (out, pr_trees pr).

(** d_classes.py 492: [int((Nt - DFTsize) / Ns) + 1] iterations (truncation
    towards zero); filters get one slot more (665-720). *)
Definition alloc_iters (Nt N Ns : Z) : Z := Z.quot (Nt - N) Ns + 1.
