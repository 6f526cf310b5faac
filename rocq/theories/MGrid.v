(** Model of [SitesGrid] and [CStru] (/repo/ababe/stru/scaffold.py:20-216).
    Grid sizes are natural numbers.  Arrays are rectangular nested lists (numpy arrays
    always are). *)
From Verif Require Import Base BaseQ MElement MComb.
Set Implicit Arguments.

(** Python list objects that hold the innermost rows live in a heap.  The outer list and
    the plane lists are never mutated after construction, so they are values (lists of row
    addresses). *)
Definition heap := list (list specie).

(** scaffold.py:26-30 attributes *)
Record sgrid := mkGrid { g_sites : list (list nat); g_depth : nat; g_width : nat; g_length : nat }.

(** scaffold.py:26-30 [SitesGrid.__init__] *)
Definition SitesGrid_new (hp : heap) (sites : list (list nat)) : res sgrid :=
  do p0 <- get_nth sites 0;
  do a0 <- get_nth p0 0;
  do r0 <- get_nth hp a0;
  Ok (mkGrid sites (length sites) (length p0) (length r0)).

(** A nested list literal: every row is a fresh object. *)
Fixpoint alloc (hp : heap) (planes : list (list (list specie))) : list (list nat) * heap :=
  match planes with
  | [] => ([], hp)
  | p :: t =>
      let (ads, hp') := alloc (hp ++ p) t in
      (seq (length hp) (length p) :: ads, hp')
  end.
(** scaffold.py:26-30 from rows already in the heap *)
Definition grid_of (hp : heap) (planes : list (list (list specie))) : res (sgrid * heap) :=
  let (ads, hp') := alloc hp planes in
  do g <- SitesGrid_new hp' ads; Ok (g, hp').

(** scaffold.py:32-38 [sea] *)
Definition sea (hp : heap) (depth width length : nat) (sp : specie) : res (sgrid * heap) :=
  grid_of hp (repeat (repeat (repeat sp length) width) depth).

(** scaffold.py:56-58 [__getitem__] *)
Definition grid_get (hp : heap) (g : sgrid) (pos : Z * Z * Z) : res specie :=
  let '(d, w, l) := pos in
  do plane <- py_get (g_sites g) d;
  do a <- py_get plane w;
  do row <- get_nth hp a;
  py_get row l.

(** scaffold.py:60-62 [__setitem__] *)
Definition grid_set (hp : heap) (g : sgrid) (pos : Z * Z * Z) (sp : specie) : res heap :=
  let '(d, w, l) := pos in
  do plane <- py_get (g_sites g) d;
  do a <- py_get plane w;
  do row <- get_nth hp a;
  do row' <- py_set row l sp;
  set_nth hp a row'.

(** The nested lists a grid denotes. *)
Definition contents (hp : heap) (g : sgrid) : res (list (list (list specie))) :=
  mapM (mapM (get_nth hp)) (g_sites g).

(** [==] on lists: same length and equal members. *)
Fixpoint list_eqb {A} (e : A -> A -> bool) (a b : list A) : bool :=
  match a, b with
  | [], [] => true
  | x :: s, y :: t => e x y && list_eqb e s t
  | _, _ => false
  end.

(** scaffold.py:64-67 [__eq__] *)
Definition grid_eqb (hp : heap) (g other : sgrid) : res bool :=
  do a <- contents hp g; do b <- contents hp other;
  Ok (list_eqb (list_eqb (list_eqb sp_eqb)) a b).

(** scaffold.py:69-72 [deepCopy]: new outer list and new plane lists, [x[:][:]] copies a
    plane twice but never its rows. *)
Definition deepCopy (hp : heap) (g : sgrid) : res sgrid :=
  do c <- SitesGrid_new hp (g_sites g);
  Ok (mkGrid (List.map (fun x => x) (g_sites g)) (g_depth c) (g_width c) (g_length c)).

(** [np.array(nested lists)] has the shape of its first plane and row when all lengths agree. *)
Definition rectangular {A} (a : list (list (list A))) (d w l : nat) : bool :=
  Nat.eqb (length a) d &&
  forallb (fun p => Nat.eqb (length p) w && forallb (fun r => Nat.eqb (length r) l) p) a.
(** [np.shape] of a nested list *)
Definition shape_of {A} (a : list (list (list A))) : nat * nat * nat :=
  match a with
  | [] => (0, 0, 0)%nat
  | [] :: _ => (length a, 0, 0)%nat
  | ((r :: _) as p) :: _ => (length a, length p, length r)
  end.
(** [np.vectorize] refuses arrays of size 0 (ValueError). *)
Definition size_of {A} (a : list (list (list A))) : nat := length (concat (concat a)).

(** scaffold.py:74-77 [to_array]; ragged grids (possible only through [__init__]) give an
    array of lists, on which [sp.Z] fails. *)
Definition to_array (hp : heap) (g : sgrid) : res (list (list (list Z))) :=
  do a <- contents hp g;
  let '(d, w, l) := shape_of a in
  if negb (rectangular a d w l) then Raise AttributeError
  else if Nat.eqb (size_of a) 0 then Raise ValueError
  else Ok (List.map (List.map (List.map sp_Z)) a).

(** scaffold.py:79-83 [from_array] *)
Definition from_array (hp : heap) (arr : list (list (list Z))) : res (sgrid * heap) :=
  if Nat.eqb (size_of arr) 0 then Raise ValueError
  else
    do sarr <- mapM (mapM (mapM from_num)) arr;
    grid_of hp sarr.

(** [np.array(out).reshape((d, w, l))], C order. *)
Fixpoint chunks {A} (k n : nat) (l : list A) : list (list A) :=
  match k with
  | O => []
  | S k' => firstn n l :: chunks k' n (skipn n l)
  end.
(** [np.reshape] to d, w, l *)
Definition reshape {A} (d w l : nat) (out : list A) : list (list (list A)) :=
  List.map (chunks w l) (chunks d (w * l) out).

(** scaffold.py:100-104: one placement *)
Definition speckle_at (hp : heap) (i_sea i_speckle : Z) (d w l : nat) (w_on : list nat) : res (sgrid * heap) :=
  do out <- put (repeat i_sea (d * w * l)) w_on i_speckle;
  from_array hp (reshape d w l out).
(** scaffold.py:99-104: the loop *)
Fixpoint gen_speckle_loop (hp : heap) (i_sea i_speckle : Z) (d w l : nat) (combs : list (list nat)) : trace sgrid * heap :=
  match combs with
  | [] => (mkTrace [] None, hp)
  | w_on :: rest =>
      match speckle_at hp i_sea i_speckle d w l w_on with
      | Raise e => (mkTrace [] (Some e), hp)
      | Ok (g, hp1) =>
          let (t, hp2) := gen_speckle_loop hp1 i_sea i_speckle d w l rest in
          (mkTrace (g :: items t) (stop t), hp2)
      end
  end.
(** scaffold.py:93-104 [gen_speckle]; the second component is the heap after all grids
    have been made. *)
Definition gen_speckle (hp : heap) (ssp : specie) (size : nat * nat * nat) (sp : specie) (noa : Z) : trace sgrid * heap :=
  let '(d, w, l) := size in
  match combinations (range (d * w * l)) noa with
  | Raise e => (mkTrace [] (Some e), hp)
  | Ok combs => gen_speckle_loop hp (sp_Z ssp) (sp_Z sp) d w l combs
  end.

(** scaffold.py:85-91 [random_fill]; [bits] is the array [np.random.randint(2, size)]. *)
Definition random_fill (hp : heap) (bsp : specie) (d w l : nat) (sp : specie) (bits : list (list (list Z))) : res (sgrid * heap) :=
  from_array hp (List.map (List.map (List.map (fun b => sp_Z bsp + (sp_Z sp - sp_Z bsp) * b)%Z)) bits).

(** scaffold.py:109-114 [CStru]: matrix and grid (the sizes are those of the grid). *)
Record cstru := mkCStru { c_m : mat Qc; c_grid : sgrid }.

(** scaffold.py:151-154 [CStru.gen_speckle] *)
Definition cstru_gen_speckle (hp : heap) (m : mat Qc) ssp size sp noa : trace cstru * heap :=
  let (t, hp') := gen_speckle hp ssp size sp noa in
  (mkTrace (List.map (mkCStru m) (items t)) (stop t), hp').

(** scaffold.py:156-161 [_yield_position] *)
Definition yield_position (d w l : nat) : list (nat * nat * nat) :=
  flat_map (fun c => flat_map (fun b => List.map (fun a => (c, b, a)) (range l)) (range w)) (range d).

(** a count as a coordinate *)
Definition Nc (n : nat) : Qc := Zc (Z.of_nat n).

(** scaffold.py:163-180 [get_cell] *)
Definition get_cell (hp : heap) (s : cstru) : res (mat Qc * list (vec Qc) * list Z) :=
  let marr := c_m s in
  do g_arr <- to_array hp (c_grid s);
  let d := g_depth (c_grid s) in
  let w := g_width (c_grid s) in
  let l := g_length (c_grid s) in
  let arr_bas := V3 (vscale (Nc d) (vx marr)) (vscale (Nc w) (vy marr)) (vscale (Nc l) (vz marr)) in
  let arr_pos := List.map (fun p => let '(c, b, a) := p in
    (V3 (Nc c * (1 / Nc d)) (Nc b * (1 / Nc w)) (Nc a * (1 / Nc l)))%Qc) (yield_position d w l) in
  let arr_num := concat (concat g_arr) in
  Ok (arr_bas, arr_pos, arr_num).

(** scaffold.py:205-209 [get_midpoint] *)
Definition get_midpoint (s : cstru) : nat * nat * nat :=
  (g_depth (c_grid s) / 2, g_width (c_grid s) / 2, g_length (c_grid s) / 2)%nat.
