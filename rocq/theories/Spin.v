(** Model of the 'spinning top' layouts: siggen/utils.py 1732-1817 [random_points_on_line],
    1681-1729 [rotate_array_yx] and 421-585 (layouts 'random_spinning_top' and
    'vert_spinning_top' of [build_room]).

    Reals instead of floats; random numbers are parameters.  The numbers of attempts (1000
    points, 1000 layouts) are parameters as well. *)
From Verif Require Import Base Layout.
From Coq Require Import Reals.
Local Open Scope R_scope.

Definition ltb (a b : R) : bool := if Rlt_dec a b then true else false.
Definition coords (p : vec) : list R := [px p; py p; pz p].

(** ** [random_points_on_line] *)
Section Line.
  Variables (maxIter : nat) (az el m maxR : R) (rd : vec) (ox oy : R) (draw : nat -> R).
  (** 1776-1787; [np.random.uniform(a, b)] is [a + (b - a) u] *)
  Definition line_point (u : R) : vec :=
    let r := m + (maxR - m - m) * u in
    V (r * cos az * sin el + ox) (r * sin az * sin el + oy) (r * cos el).
  (** 1799-1801 *)
  Definition outside (p : vec) : bool :=
    ltb (px rd - m) (px p) || ltb (px p) m || (ltb (py rd - m) (py p) || ltb (py p) m) || (ltb (pz rd - m) (pz p) || ltb (pz p) m).
  (** 1797-1804: point, attempts left, next draw *)
  Fixpoint draw_inside (left t : nat) : option (vec * nat * nat) :=
    match left with
    | O => None
    | S l => let p := line_point (draw t) in if outside p then draw_inside l (S t) else Some (p, l, S t)
    end.
  (** 1807-1815: the conditions on the room are computed, but not used *)
  Fixpoint draw_spaced (left t : nat) (sp : R) (prev : list vec) (p : vec) : option (vec * nat) :=
    if existsb (fun q => ltb (norm (vsub q p)) sp) prev then
      match left with
      | O => None
      | S l => draw_spaced l (S t) sp prev (line_point (draw t))
      end
    else Some (p, t).
  (** 1791-1817; [None] for [minSpacing] is compared with 0 (1806) from the second point on *)
  Fixpoint points (n : nat) (sp : option R) (prev : list vec) (t : nat) : res (option (list vec)) :=
    match n with
    | O => Ok (Some prev)
    | S n' =>
      match draw_inside maxIter t with
      | None => Ok None
      | Some (p, l, t') =>
        match prev with
        | [] => points n' sp [p] t'
        | _ =>
          match sp with
          | None => Err TypeError
          | Some s =>
            if ltb 0 s then
              match draw_spaced l t' s prev p with
              | None => Ok None
              | Some (p', t'') => points n' sp (prev ++ [p']) t''
              end
            else points n' sp (prev ++ [p]) t'
          end
        end
      end
    end.
End Line.

(** ** [rotate_array_yx] *)
Definition cross (a b : vec) : vec := V (py a * pz b - pz a * py b) (pz a * px b - px a * pz b) (px a * py b - py a * px b).
(** 1706-1725; divisions by zero give nan in numpy *)
Definition rotate_yx (target : vec) (l : list vec) : res (list vec) :=
  if Req_EM_T (norm target) 0 then Err ZeroDivisionError
  else
    let b := vscale (/ norm target) target in
    let v := cross (V 0 0 1) b in
    let s := norm v in
    let c := dot (V 0 0 1) b in
    if Req_EM_T s 0 then Err ZeroDivisionError
    else Ok (map (fun p => let w := vsub p target in
                           vadd (vadd (vadd w (cross v w)) (vscale ((1 - c) / (s * s)) (cross v (cross v w)))) target) l).

(** ** Layout *)
Inductive kind := RandomTop | VertTop.
Record top := mkT { t_kind : kind; t_rd : vec; t_m : R; t_nD : nat; t_nN : nat; t_sp : option R; t_inter : option R;
                    t_geo : geometry; t_sep : R; t_Mk : list nat; t_wiggle : R }.
(** random numbers of one attempt *)
Record tdraws := mkD { d_x : R; d_y : R; d_az : R; d_el : R; d_D : nat -> R; d_N : nat -> R; d_C : nat -> R; d_r : R; d_w : list vec; d_ch : list choices }.

(** 436-439 *)
Definition circ_min (c : top) : R :=
  match t_inter c with Some d => d | None => 2 * t_sep c * INR (fold_right Nat.max 0%nat (t_Mk c)) end.
(** 508-520 *)
Definition circ_radius (c : top) (centre : vec) (u : R) : R :=
  let maxR := match t_kind c with RandomTop => norm (t_rd c) | VertTop => px (t_rd c) end in
  let ref := norm centre in
  let rmax := if ltb ref (maxR / 2) then (ref - t_m c) / 3 else (maxR - ref - t_m c) / 3 in
  if ltb rmax (circ_min c) then circ_min c else circ_min c + (rmax - circ_min c) * u.
(** 522-546: centre of the array of node [k]; the wiggle is between -1 and 1 times its amount *)
Definition node_centre (centre : vec) (r : R) (n k : nat) (amount : R) (w : vec) : vec :=
  let a := INR k * (2 * PI / INR n) in
  let p := V (px centre + r * cos a) (py centre + r * sin a) (pz centre) in
  if Req_EM_T amount 0 then p
  else vadd p (V (- amount + 2 * amount * px w) (- amount + 2 * amount * py w) (- amount + 2 * amount * pz w)).
(** 565-570: the coordinates are [3 x n], the dimensions of the room have length 3: numpy
    compares each of them with each dimension for one source, the coordinates of source [j]
    with dimension [j] for three, and refuses other numbers *)
Definition beyond (rd : vec) (m : R) (l : list vec) : res bool :=
  match l with
  | [p] => Ok (existsb (fun x => existsb (fun d => ltb (d - m) x) (coords rd)) (coords p))
  | [_; _; _] => Ok (existsb (fun pd => existsb (fun x => ltb (snd pd - m) x) (coords (fst pd))) (combine l (coords rd)))
  | _ => Err ValueError
  end.
Definition near (m : R) (l : list vec) : bool := existsb (fun p => existsb (fun x => ltb x m) (coords p)) l.
(** 561-570: [True] if some sensor or source is found not to be in the room *)
Definition rejected (rd : vec) (m : R) (sensors D N : list vec) : res bool :=
  if existsb (fun p => existsb (fun xd => ltb (snd xd - m) (fst xd)) (combine (coords p) (coords rd))) sensors || near m sensors then Ok true
  else
    do f <- beyond rd m D;
    if f || near m D then Ok true
    else do g <- beyond rd m N; Ok (g || near m N).
(** one attempt, 450-576: sources, noise sources, sensors.  [random_points_on_line] is called
    with the offsets of the line in the places of its distance to the walls and its longest
    distance (466-474, 481-489, 496-502). *)
Definition attempt (fuel maxIter : nat) (c : top) (d : tdraws) : res (option (list vec * list vec * list vec)) :=
  let rd := t_rd c in
  let m := t_m c in
  (** 451-456: a negative scale is refused *)
  if ltb (px rd - circ_min c - m) 0 || ltb (py rd - circ_min c - m) 0 then Err ValueError
  else
    let line n sp draw := points maxIter (d_az d) (d_el d) (d_x d) (d_y d) rd 0 0 draw n sp [] 0 in
    do D <- line (t_nD c) (t_sp c) (d_D d);
    match D with
    | None => Ok None
    | Some D =>
      do N <- line (t_nN c) (t_sp c) (d_N d);
      match N with
      | None => Ok None
      | Some N =>
        do C <- line 1%nat (Some 0) (d_C d);
        match C with
        | None => Err (match t_kind c with RandomTop => TypeError | VertTop => IndexError end) (* 503-513: [np.squeeze(None)] is not [None] *)
        | Some C =>
          do c0 <- get C 0;
          let centre := match t_kind c with RandomTop => c0 | VertTop => V (px c0) (py c0) 0 end in
          let r := circ_radius c centre (d_r d) in
          do arrays <- mapM (fun kc => let '(k, (M, (w, ch))) := kc in
                               array_pos fuel (t_geo c) ch (node_centre centre r (length (t_Mk c)) k (t_wiggle c) w) M (t_sep c) true)
                            (combine (seq 0 (length (t_Mk c))) (combine (t_Mk c) (combine (d_w d) (d_ch d))));
          do sensors <- match t_kind c with RandomTop => rotate_yx centre (concat arrays) | VertTop => Ok (concat arrays) end;
          do bad <- rejected rd m sensors D N;
          Ok (if bad then None else Some (D, N, sensors))
        end
      end
    end.
(** 442-447; [draws k] are the random numbers of attempt [k] *)
Fixpoint spinning_top (fuel maxIter : nat) (c : top) (draws : nat -> tdraws) (left k : nat) : res (list vec * list vec * list vec) :=
  match left with
  | O => Err ValueError
  | S l =>
    do r <- attempt fuel maxIter c (draws k);
    match r with
    | Some x => Ok x
    | None => spinning_top fuel maxIter c draws l (S k)
    end
  end.
