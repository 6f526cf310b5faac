(** Model of [RandomPopSet] (/repo/ababe/mlearn/dsutils.py), [random_walk_arrange]
    (/repo/ababe/mlearn/arrange.py), the arrangement problems
    (/repo/ababe/mlearn/arrangeAgent.py), [SitesGrid2d]/[CStru2d]
    (/repo/ababe/stru/scaffold2d.py) and [CStru.get_neighbors]
    (/repo/ababe/stru/scaffold.py:205-242). *)
From Verif Require Import Base BaseQ MElement MGrid.
Set Implicit Arguments.
Open Scope nat_scope.

Section Sets.
(** Hashable Python objects with their [==]; [none] is the object [None]. *)
Variable V : Type.
Variable eqb : V -> V -> bool.
Variable none : V.

(** A dict from objects to ints, in insertion order. *)
Definition dict := list (V * nat).
(** Python dict: lookup, membership, update in place, deletion. *)
Fixpoint dict_get (d : dict) (k : V) : option nat :=
  match d with [] => None | (k', v) :: t => if eqb k' k then Some v else dict_get t k end.
Definition dict_mem (d : dict) (k : V) : bool := match dict_get d k with Some _ => true | None => false end.
Fixpoint dict_set (d : dict) (k : V) (v : nat) : dict :=
  match d with
  | [] => [(k, v)]
  | (k', w) :: t => if eqb k' k then (k', v) :: t else (k', w) :: dict_set t k v
  end.
Definition dict_del (d : dict) (k : V) : dict := List.filter (fun e => negb (eqb (fst e) k)) d.

(** dsutils.py:10-14, the attributes [map] and [list] *)
Record rps := mkRps { r_map : dict; r_list : list V }.
(** dsutils.py:11-12 *)
Definition rps_empty : rps := mkRps [] [].

(** dsutils.py:16-17 [__len__], 19-20 [__iter__], 22-23 [__contains__] *)
Definition rp_len (s : rps) : nat := length (r_map s).
(** dsutils.py:19-20 [__iter__] *)
Definition rp_iter (s : rps) : list V := r_list s.
(** dsutils.py:22-23 [__contains__] *)
Definition rp_contains (s : rps) (item : V) : bool := dict_mem (r_map s) item.

(** dsutils.py:25-28 [add]; 30-31 [push] *)
Definition rp_add (s : rps) (item : V) : rps :=
  if dict_mem (r_map s) item then s
  else mkRps (dict_set (r_map s) item (length (r_list s))) (r_list s ++ [item]).
(** dsutils.py:30-31 [push] *)
Definition rp_push (s : rps) (item : V) : rps := rp_add s item.

(** dsutils.py:33-39 [discard]: the right-hand side of the swap is read first, then
    [list[index]] and [list[-1]] are written in this order. *)
Definition rp_discard (s : rps) (item : V) : res rps :=
  match dict_get (r_map s) item with
  | None => Ok s
  | Some index =>
      do last <- py_get (r_list s) (-1);
      do x <- get_nth (r_list s) index;
      do l1 <- set_nth (r_list s) index last;
      do l2 <- py_set l1 (-1) x;
      do y <- get_nth l2 index;
      let m1 := dict_set (r_map s) y index in
      let l3 := removelast l2 in
      if dict_mem m1 item then Ok (mkRps (dict_del m1 item) l3) else Raise KeyError
  end.

(** dsutils.py:41-44 [get_random]; [random.randint(0, n-1)] is [r mod n] for a raw random
    number [r], so every outcome occurs.  Falls through to [None] on an empty list. *)
Definition get_random (s : rps) (r : nat) : res V :=
  match r_list s with
  | [] => Ok none
  | _ :: _ => get_nth (r_list s) (r mod length (r_list s))
  end.

(** dsutils.py:46-50 [random_pop] *)
Definition random_pop (s : rps) (r : nat) : res (rps * V) :=
  do item <- get_random s r;
  do s' <- rp_discard s item;
  Ok (s', item).

(** Inherited from [collections.abc.MutableSet]: [__ior__] (used by [__init__], line 14),
    [remove], [pop], [clear], and [Set.__le__], [Set.__eq__]. *)
Definition rp_ior (s : rps) (it : list V) : rps := List.fold_left rp_add it s.
(** dsutils.py:10-14 [__init__] with an iterable *)
Definition rp_new (iterable : option (list V)) : rps :=
  match iterable with None => rps_empty | Some it => rp_ior rps_empty it end.
(** Inherited from [collections.abc.MutableSet] (dsutils.py:8): remove, pop, clear, comparison. *)
Definition rp_remove (s : rps) (item : V) : res rps :=
  if rp_contains s item then rp_discard s item else Raise KeyError.
(** MutableSet.pop: the first of the iteration, discarded *)
Definition rp_pop (s : rps) : res (rps * V) :=
  match r_list s with
  | [] => Raise KeyError
  | value :: _ => do s' <- rp_discard s value; Ok (s', value)
  end.
(** [while True: self.pop()] until KeyError; one iteration more than elements suffices. *)
Fixpoint rp_clear_loop (fuel : nat) (s : rps) : res rps :=
  match fuel with
  | O => Ok s
  | S f =>
      match rp_pop s with
      | Raise KeyError => Ok s
      | Raise e => Raise e
      | Ok (s', _) => rp_clear_loop f s'
      end
  end.
(** MutableSet.clear *)
Definition rp_clear (s : rps) : res rps := rp_clear_loop (S (length (r_list s))) s.
(** collections.abc.Set.__le__ *)
Definition rp_le (s t : rps) : bool := (rp_len s <=? rp_len t) && forallb (rp_contains t) (rp_iter s).
(** collections.abc.Set.__eq__ *)
Definition rp_eq (s t : rps) : bool := (rp_len s =? rp_len t) && rp_le s t.

(** Calls a client can make; the number in [OPop] is the raw random number. *)
Inductive op :=
| OAdd (x : V) | OPush (x : V) | ODiscard (x : V) | OPop (r : nat)
| ORemove (x : V) | OMPop | OClear | OIor (l : list V).

(** What the call returns or raises; a raising call leaves the set as it was. *)
Definition settle (s : rps) (x : res rps) : rps * res V :=
  match x with Ok s' => (s', Ok none) | Raise e => (s, Raise e) end.
(** The same for calls returning an item. *)
Definition settle2 (s : rps) (x : res (rps * V)) : rps * res V :=
  match x with Ok (s', v) => (s', Ok v) | Raise e => (s, Raise e) end.
(** One call on the object (dsutils.py:8-50). *)
Definition step (s : rps) (o : op) : rps * res V :=
  match o with
  | OAdd x => (rp_add s x, Ok none)
  | OPush x => (rp_push s x, Ok none)
  | ODiscard x => settle s (rp_discard s x)
  | OPop r => settle2 s (random_pop s r)
  | ORemove x => settle s (rp_remove s x)
  | OMPop => settle2 s (rp_pop s)
  | OClear => settle s (rp_clear s)
  | OIor l => (rp_ior s l, Ok none)
  end.
(** A client's history, latest call first. *)
Fixpoint run_ops (s : rps) (h : list (op * res V)) (ops : list op) : rps * list (op * res V) :=
  match ops with
  | [] => (s, h)
  | o :: t => let (s', r) := step s o in run_ops s' ((o, r) :: h) t
  end.

(** arrange.py:16-35 [random_walk_arrange].  [nbrs k x] is what iterating
    [problem.get_neighbors(x)] gives at the [k]-th call (a set may be iterated in a different
    order each time); [rnd] supplies the raw random numbers; [fuel] bounds the [while] loop,
    [None] means it has not ended yet. *)
Definition in_path (path : list V) (x : V) : bool := existsb (eqb x) path.
(** arrange.py:30-33: push every neighbour that is not in the path *)
Definition push_new (path : list V) (f : rps) (ps : list V) : rps :=
  List.fold_left (fun f pos => if in_path path pos then f else rp_push f pos) ps f.
(** arrange.py:26-35: the loop *)
Fixpoint walk_loop (fuel : nat) (nbrs : nat -> V -> res (list V)) (is_goal : nat -> bool)
    (rnd : nat -> nat) (path : list V) (frontier : rps) : option (res (list V)) :=
  match fuel with
  | O => None
  | S f =>
      if is_goal (length path) then Some (Ok path)
      else
        match random_pop frontier (rnd (length path)) with
        | Raise e => Some (Raise e)
        | Ok (frontier1, current) =>
            let path' := path ++ [current] in
            match nbrs (length path) current with
            | Raise e => Some (Raise e)
            | Ok ps => walk_loop f nbrs is_goal rnd path' (push_new path' frontier1 ps)
            end
        end
  end.
(** arrange.py:16-35 *)
Definition random_walk_arrange (fuel : nat) (nbrs : nat -> V -> res (list V)) (is_goal : nat -> bool)
    (rnd : nat -> nat) (start : V) : option (res (list V)) :=
  match nbrs 0 start with
  | Raise e => Some (Raise e)
  | Ok ps => walk_loop fuel nbrs is_goal rnd [start] (List.fold_left rp_push ps rps_empty)
  end.
End Sets.
Arguments rps_empty {V}.
Arguments OMPop {V}.
Arguments OClear {V}.
Arguments OPop {V} r.

(** The objects the two problems handle. *)
Inductive pyval := VNone | VInt (z : Z) | VTup (l : list Z).
(** [==] on the values stored in the frontier *)
Definition pyval_eqb (a b : pyval) : bool :=
  match a, b with
  | VNone, VNone => true
  | VInt x, VInt y => Z.eqb x y
  | VTup x, VTup y => list_eqb Z.eqb x y
  | _, _ => false
  end.

(** [itemgetter( *ind)(keys)] followed by [set(...)]: no index is a TypeError, one index gives
    that item itself, which [set] then takes apart into its coordinates. *)
Definition item_set (keys : list (list Z)) (ind : list nat) : res (list pyval) :=
  match ind with
  | [] => Raise TypeError
  | [i] => do k <- get_nth keys i; Ok (List.map VInt (nodup Z.eq_dec k))
  | _ => do ks <- take_idx keys ind; Ok (List.map VTup ks)
  end.

(** [cKDTree(points)] needs at least one point (ValueError);
    [query_ball_point(point, delta)] lists the points at distance at most [delta]
    (scipy compares squares).  The indices come in tree order; as the result is only used to
    build a set, list order is taken. *)
Definition ball (sq : list Qc) (delta : Qc) : res (list nat) :=
  match sq with
  | [] => Raise ValueError
  | _ => Ok (List.map fst (List.filter (fun e => Qcleb (snd e) (delta * delta)%Qc) (enumerate sq)))
  end.

(** squared length *)
Definition sqlen (v : vec Qc) : Qc := vdot v v.

(** scaffold.py:220-224 [_pos2coor] *)
Definition pos2coor (m : mat Qc) (x y z : Z) : vec Qc :=
  vadd (vadd (vscale (Zc x) (vx m)) (vscale (Zc y) (vy m))) (vscale (Zc z) (vz m)).
(** scaffold.py:226-230 [p_gen] *)
Definition p_gen (d w l : nat) : list (Z * Z * Z) :=
  flat_map (fun z => flat_map (fun x => List.map (fun y => (Z.of_nat x, Z.of_nat y, Z.of_nat z)) (range l)) (range w)) (range d).
(** [==] on index triples *)
Definition pos_eqb (p q : Z * Z * Z) : bool :=
  let '(a, b, c) := p in let '(x, y, z) := q in Z.eqb a x && Z.eqb b y && Z.eqb c z.

(** scaffold.py:218-242 [CStru.get_neighbors]; [d w l] are the grid's depth, width, length.
    [pos] is any object: only a triple can be unpacked (TypeError, or ValueError for tuples of
    another size). *)
Definition get_neighbors (m : mat Qc) (d w l : nat) (pos : pyval) (delta : Qc) : res (list pyval) :=
  match pos with
  | VTup [x; y; z] =>
      let point := pos2coor m x y z in
      let keys := p_gen d w l in
      if negb (existsb (pos_eqb (x, y, z)) keys) then Raise KeyError
      else
        let keys' := List.filter (fun k => negb (pos_eqb (x, y, z) k)) keys in
        let points := List.map (fun k => let '(a, b, c) := k in pos2coor m a b c) keys' in
        do ind <- ball (List.map (fun q => sqlen (vsub q point)) points) delta;
        item_set (List.map (fun k => let '(a, b, c) := k in [a; b; c]) keys') ind
  | VTup _ => Raise ValueError
  | _ => Raise TypeError
  end.
(** scaffold.py:218-242 on the matrix and grid of [s] *)
Definition cstru_get_neighbors (s : cstru) (pos : pyval) (delta : Qc) : res (list pyval) :=
  get_neighbors (c_m s) (g_depth (c_grid s)) (g_width (c_grid s)) (g_length (c_grid s)) pos delta.
(** scaffold.py:205-209 as a value of the frontier *)
Definition midpoint_val (s : cstru) : pyval :=
  let '(a, b, c) := get_midpoint s in VTup [Z.of_nat a; Z.of_nat b; Z.of_nat c].

(** scaffold2d.py:11-14 [SitesGrid2d.__init__]: an IndexError without rows.  The rows are
    never written, so the nested list is a value. *)
Record sgrid2 := mkGrid2 { g2_sites : list (list specie); g2_width : nat; g2_length : nat }.
(** scaffold2d.py:11-14 [__init__] *)
Definition SitesGrid2d_new (sites : list (list specie)) : res sgrid2 :=
  do r0 <- get_nth sites 0; Ok (mkGrid2 sites (length sites) (length r0)).
(** scaffold2d.py:24-29 [sea] *)
Definition sea2 (width length : nat) (sp : specie) : res sgrid2 :=
  SitesGrid2d_new (repeat (repeat sp length) width).
(** scaffold2d.py:31-33 [__eq__] *)
Definition grid2_eqb (g other : sgrid2) : bool := list_eqb (list_eqb sp_eqb) (g2_sites g) (g2_sites other).
(** scaffold2d.py:35-38 [get_array]: [np.vectorize] refuses size 0; rows of different
    lengths give an array of lists, on which [sp.Z] fails. *)
Definition get_array2 (g : sgrid2) : res (list (list Z)) :=
  if negb (forallb (fun r => length r =? g2_length g) (g2_sites g)) then Raise AttributeError
  else if length (concat (g2_sites g)) =? 0 then Raise ValueError
  else Ok (List.map (List.map sp_Z) (g2_sites g)).
(** scaffold2d.py:40-44 [from_array]: [Specie] has no attribute [to_sp]
    (/repo/ababe/stru/element.py), looked up at the first entry. *)
Definition from_array2 (arr : list (list Z)) : res sgrid2 :=
  if length (concat arr) =? 0 then Raise ValueError else Raise AttributeError.

(** scaffold2d.py:47-51 [CStru2d] *)
Definition vec2 := (Qc * Qc)%type.
(** scaffold2d.py:47-51 attributes *)
Record cstru2 := mkCStru2 { c2_m : vec2 * vec2; c2_grid : sgrid2 }.
(** scaffold2d.py:60-63 [get_midpoint] *)
Definition get_midpoint2 (s : cstru2) : pyval :=
  VTup [Z.of_nat (g2_width (c2_grid s) / 2); Z.of_nat (g2_length (c2_grid s) / 2)].
(** scaffold2d.py:74-78 *)
Definition pos2coor2 (m : vec2 * vec2) (x y : Z) : vec2 :=
  let (a, b) := m in (fst a * Zc x + fst b * Zc y, snd a * Zc x + snd b * Zc y)%Qc.
(** squared distance in the plane *)
Definition sqdist2 (p q : vec2) : Qc := ((fst p - fst q) * (fst p - fst q) + (snd p - snd q) * (snd p - snd q))%Qc.
(** scaffold2d.py:80-83 *)
Definition p_gen2 (w l : nat) : list (Z * Z) :=
  flat_map (fun x => List.map (fun y => (Z.of_nat x, Z.of_nat y)) (range l)) (range w).
(** [==] on index pairs *)
Definition pos_eqb2 (p q : Z * Z) : bool := Z.eqb (fst p) (fst q) && Z.eqb (snd p) (snd q).
(** scaffold2d.py:72-95 [CStru2d.get_neighbors] *)
Definition get_neighbors2 (m : vec2 * vec2) (w l : nat) (pos : pyval) (delta : Qc) : res (list pyval) :=
  match pos with
  | VTup [x; y] =>
      let point := pos2coor2 m x y in
      let keys := p_gen2 w l in
      if negb (existsb (pos_eqb2 (x, y)) keys) then Raise KeyError
      else
        let keys' := List.filter (fun k => negb (pos_eqb2 (x, y) k)) keys in
        do ind <- ball (List.map (fun k => sqdist2 (pos2coor2 m (fst k) (snd k)) point) keys') delta;
        item_set (List.map (fun k => [fst k; snd k]) keys') ind
  | VTup _ => Raise ValueError
  | _ => Raise TypeError
  end.
(** scaffold2d.py:72-95 on the matrix and grid of [s] *)
Definition cstru2_get_neighbors (s : cstru2) (pos : pyval) (delta : Qc) : res (list pyval) :=
  get_neighbors2 (c2_m s) (g2_width (c2_grid s)) (g2_length (c2_grid s)) pos delta.

(** arrangeAgent.py:11-18, 28-32 [Boron2dArrangeProblem]; [order k] is the order in which the
    set of the [k]-th call is iterated. *)
Definition boron_m : vec2 * vec2 := ((Zc 2, Zc 0), (Zc 1, Q2Qc (1732058 # 1000000))).
(** arrangeAgent.py:14, 41 *)
Definition arrange_delta : Qc := Q2Qc (21 # 10).
(** arrangeAgent.py:11-18 *)
Definition boron_problem (goal_num : Z) : res cstru2 :=
  let n := Z.to_nat goal_num in
  do sg <- SitesGrid2d_new (repeat (repeat GhostSpecie_new n) n);
  Ok (mkCStru2 boron_m sg).
(** arrangeAgent.py:23-26, 51-54 [is_goal] *)
Definition goal_test (goal_num : Z) (len_path : nat) : bool := Z.eqb (Z.of_nat len_path) goal_num.
(** iterating a set: any order *)
Definition ordered (order : nat -> list pyval -> list pyval) (f : pyval -> res (list pyval)) (k : nat) (x : pyval) : res (list pyval) :=
  do ps <- f x; Ok (order k ps).
(** arrange.py:16-35 on arrangeAgent.py:9-32 *)
Definition boron_walk (fuel : nat) (order : nat -> list pyval -> list pyval) (rnd : nat -> nat) (goal_num : Z) : option (res (list pyval)) :=
  match boron_problem goal_num with
  | Raise e => Some (Raise e)
  | Ok bg =>
      random_walk_arrange pyval_eqb VNone fuel (ordered order (fun x => cstru2_get_neighbors bg x arrange_delta))
        (goal_test goal_num) rnd (get_midpoint2 bg)
  end.

(** arrangeAgent.py:36-46, 56-60 [FCC3dArrangeProblem] *)
Definition fcc_m : mat Qc :=
  let h := Q2Qc (1 # 2) in V3 (V3 (Zc 0) h h) (V3 h (Zc 0) h) (V3 h h (Zc 0)).
(** arrangeAgent.py:36-46 *)
Definition fcc_problem (hp : heap) (goal_num : Z) : res (cstru * heap) :=
  let n := Z.to_nat goal_num in
  do (sg, hp') <- grid_of hp (repeat (repeat (repeat GhostSpecie_new n) n) n);
  Ok (mkCStru fcc_m sg, hp').
(** arrange.py:16-35 on arrangeAgent.py:34-60 *)
Definition fcc_walk (fuel : nat) (order : nat -> list pyval -> list pyval) (rnd : nat -> nat) (hp : heap) (goal_num : Z) : option (res (list pyval)) :=
  match fcc_problem hp goal_num with
  | Raise e => Some (Raise e)
  | Ok (bg, _) =>
      random_walk_arrange pyval_eqb VNone fuel (ordered order (fun x => cstru_get_neighbors bg x arrange_delta))
        (goal_test goal_num) rnd (midpoint_val bg)
  end.
