(** The rest of [CStru] (/repo/ababe/stru/scaffold.py:139-203). *)
From Verif Require Import Base BaseQ MElement MGeneralCell MGrid.
Set Implicit Arguments.

(** scaffold.py:139-140 [get_array] *)
Definition get_array (hp : heap) (s : cstru) : res (list (list (list Z))) := to_array hp (c_grid s).

(** [==] of nested lists of numbers *)
Definition mat_eqb (a b : mat Qc) : bool :=
  let veqb := fun u v : vec Qc => Qceqb (vx u) (vx v) && Qceqb (vy u) (vy v) && Qceqb (vz u) (vz v) in
  veqb (vx a) (vx b) && veqb (vy a) (vy b) && veqb (vz a) (vz b).

(** scaffold.py:142-145 [CStru.__eq__] with another structure; the matrices are nested lists
    (with numpy arrays the truth value of [==] is refused by numpy). *)
Definition cstru_eqb (hp : heap) (self other : cstru) : res bool :=
  if mat_eqb (c_m other) (c_m self) then grid_eqb hp (c_grid other) (c_grid self) else Ok false.

(** scaffold.py:147-149 [CStru.from_array] *)
Definition cstru_from_array (hp : heap) (m : mat Qc) (arr : list (list (list Z))) : res (cstru * heap) :=
  do r <- from_array hp arr; let '(g, hp') := r in Ok (mkCStru m g, hp').

(** scaffold.py:182-185 [get_gcell] *)
Definition get_gcell (hp : heap) (s : cstru) : res gcell :=
  do spg_cell <- get_cell hp s;
  let '(bas, pos, num) := spg_cell in GeneralCell_new bas pos num.

(** scaffold.py:187-197 [get_lattice], [get_positions], [get_atoms] *)
Definition get_lattice (hp : heap) (s : cstru) : res (mat Qc) :=
  do c <- get_cell hp s; let '(arr_bas, arr_pos, arr_num) := c in Ok arr_bas.
Definition get_positions (hp : heap) (s : cstru) : res (list (vec Qc)) :=
  do c <- get_cell hp s; let '(arr_bas, arr_pos, arr_num) := c in Ok arr_pos.
Definition get_atoms (hp : heap) (s : cstru) : res (list Z) :=
  do c <- get_cell hp s; let '(arr_bas, arr_pos, arr_num) := c in Ok arr_num.

(** scaffold.py:199-203 [get_id_matrix]; numpy refuses to reshape to another size. *)
Definition get_id_matrix (cell : mat Qc * list (vec Qc) * list Z) (d w l : nat) : res (list (list (list Z))) :=
  let arr_num := snd cell in
  if Nat.eqb (length arr_num) (d * w * l) then Ok (reshape d w l arr_num) else Raise ValueError.
