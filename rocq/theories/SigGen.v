(** Model of scenario generation: sensor map, topology, source looping, VAD per
    frame, key times, reference microphone (siggen/classes.py, siggen/utils.py). *)
From Verif Require Import Base.
From Coq Require Import QArith Reals.
Open Scope nat_scope.

(** siggen/classes.py 324-326: [sensorToNodeIndices]. *)
Definition sensor_map (ms : list nat) : list nat :=
  flat_map (fun kM => repeat (fst kM) (snd kM)) (combine (seq 0 (List.length ms)) ms).

(** [x[p.sensorToNodeIndices == k]] (e.g. siggen/utils.py 1220, 1263, 1315). *)
Definition sensors_of {A} (k : nat) (s2n : list nat) (x : list A) : list A :=
  map snd (filter (fun nx => Nat.eqb (fst nx) k) (combine s2n x)).

(** siggen/utils.py 1509: [np.amax(sensorToNodeIndices) + 1] (ValueError on an
    empty array). *)
Definition num_nodes (s2n : list nat) : res nat :=
  match s2n with [] => Err ValueError | _ => Ok (S (fold_right Nat.max 0 s2n)) end.

(** siggen/utils.py 61-67, 203-209: local index of reference microphone [mic];
    [np.where(...)[0][0]] raises IndexError if there is no match. *)
Definition first_where (p : nat -> bool) (l : list nat) : res nat :=
  match filter (fun ix => p (snd ix)) (combine (seq 0 (List.length l)) l) with [] => Err IndexError | (i, _) :: _ => Ok i end.
Definition ref_mic (ms : list nat) (mic : nat) : res (nat * Z) :=
  do node <- first_where (Nat.eqb mic) (sensor_map ms);
  Ok (node, (Z.of_nat mic - Z.of_nat (list_sum (firstn node ms)))%Z).

(** ** Topology: siggen/utils.py 1474-1576 *)
(** integer matrix: shape and entries *)
Record imat := mkI { m_rows : nat; m_cols : nat; m_at : nat -> nat -> Z }.

(** Topology type; [AdHocRandom]: outcome of [np.random.randint(0, 2, ...)];
    [AdHocDist]: geometrical centres of the nodes and maximum distance;
    [Unknown]: any other string. *)
Inductive topo_type :=
  | FullyConnected | AdHocRandom (draw : nat -> nat -> bool)
  | AdHocDist (centre : nat -> R * R * R) (maxdist : R)
  | UserDefined (m : imat) | Unknown.

(** 1543-1546: Euclidean distance *)
Definition dist3 (a b : R * R * R) : R :=
  let '(ax, ay, az) := a in let '(bx, byy, bz) := b in
  sqrt ((ax - bx) * (ax - bx) + (ay - byy) * (ay - byy) + (az - bz) * (az - bz)).

Definition all_entries (n : nat) (f : nat -> nat -> bool) : bool :=
  forallb (fun i => forallb (fun j => f i j) (seq 0 n)) (seq 0 n).

(** 1524-1566: connectivity matrix [topo] *)
Definition conn_matrix (n : nat) (t : topo_type) : res (nat -> nat -> Z) :=
  match t with
  | FullyConnected => Ok (fun _ _ => 1%Z)
  | AdHocRandom d => (* triu(topo) + triu(topo, 1).T *)
      Ok (fun i j => (if (Nat.leb i j && d i j) || (Nat.ltb j i && d j i) then 1 else 0)%Z)
  | AdHocDist c m => Ok (fun k j => if Rlt_dec (dist3 (c j) (c k)) m then 1%Z else 0%Z)
  | UserDefined u =>
      if negb (Nat.eqb (m_rows u) n && Nat.eqb (m_cols u) n) then Err ValueError
      else if negb (all_entries n (fun i j => (m_at u i j =? 0) || (m_at u i j =? 1))%Z) then Err ValueError
      else if negb (all_entries n (fun i j => m_at u i j =? m_at u j i)%Z) then Err ValueError
      else Ok (m_at u)
  | Unknown => Err ValueError
  end.

(** 1573-1575: neighbours *)
Definition get_topo (s2n : list nat) (t : topo_type) : res (list (list nat)) :=
  do n <- num_nodes s2n;
  do m <- conn_matrix n t;
  Ok (map (fun k => filter (fun j => (0 <? m j k)%Z && negb (Nat.eqb j k)) (seq 0 n)) (seq 0 n)).

(** ** Source looping: siggen/utils.py 153-159 (up to normalisation, 162) *)
Fixpoint loop_signal {A} (fuel n : nat) (y : list A) : res (list A) :=
  if Nat.ltb (List.length y) n then
    match fuel with O => Err OutOfFuel | S f => loop_signal f n (firstn n (y ++ y)) end
  else Ok y.
Definition source_signal {A} (fuel n : nat) (y : list A) : res (list A) :=
  if Nat.ltb n (List.length y) then Ok (firstn n y) else loop_signal fuel n y.

(** ** VAD per frame: siggen/classes.py 685-702, for one node *)
Definition ones (l : list bool) : nat := List.length (filter (fun b => b) l).
(** the loop from frame [ii] on; [todo] frames left; the array is preset to zeros *)
Fixpoint vad_loop (flen shift : nat) (prop : Q) (vad : list bool) (todo ii : nat) : list bool :=
  match todo with
  | O => []
  | S todo' =>
      if Nat.ltb (List.length vad) (ii * shift + flen) then [false]
      else Qle_bool (inject_Z (Z.of_nat (List.length (slice (ii * shift) (ii * shift + flen) vad))) * prop)
                    (inject_Z (Z.of_nat (ones (slice (ii * shift) (ii * shift + flen) vad))))
           :: vad_loop flen shift prop vad todo' (S ii)
  end.
Definition vad_per_frame (flen shift : nat) (prop : Q) (vad : list bool) : res (list bool) :=
  match vad with
  | [] => Err ValueError
  | _ => if Nat.eqb shift 0 then Err ZeroDivisionError
         else Ok (vad_loop flen shift prop vad (List.length vad / shift) 0)
  end.

(** ** Key times: siggen/classes.py 766-846; [thr] is
    [minNoSpeechDurEndUtterance * fs]; results in samples (the code divides by
    [fs]). *)
Definition vad_at (vad : list bool) (i : nat) : bool := nth i vad false.
(** 788-790 *)
Definition vad_changes (vad : list bool) : list nat :=
  filter (fun i => xorb (vad_at vad i) (vad_at vad (i - 1))) (seq 1 (List.length vad - 1)).
(** 772-785 [_jump_over_short_changes] *)
Fixpoint jump (fuel : nat) (thr : Q) (c : list nat) (idx : nat) : res nat :=
  do a <- get c idx;
  do b <- get c (idx + 1);
  if negb (Qle_bool thr (inject_Z (Z.of_nat b - Z.of_nat a))) then
    match fuel with O => Err OutOfFuel | S f => jump f thr c (idx + 2) end
  else Ok idx.
Definition first_idx (vad : list bool) : res nat :=
  match vad with [] => Err IndexError | v :: _ => Ok (if v then 0 else 1) end.

(** 803-812: reference 'end_1st_utterance' *)
Definition end_1st (thr : Q) (vad : list bool) : res nat :=
  do i0 <- first_idx vad;
  do i <- jump (List.length vad) thr (vad_changes vad) i0;
  get (vad_changes vad) i.
(** 814-819: 'beginning_1st_utterance' *)
Definition beginning_1st (vad : list bool) : res nat :=
  do i0 <- first_idx vad;
  if Nat.eqb i0 0 then Ok 0 else get (vad_changes vad) (i0 - 1).
(** 821-829: 'beginning_2nd_utterance' *)
Definition beginning_2nd (thr : Q) (vad : list bool) : res nat :=
  do i0 <- first_idx vad;
  do i <- jump (List.length vad) thr (vad_changes vad) i0;
  get (vad_changes vad) (i + 1).
