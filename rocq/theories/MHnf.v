(** Model of superlattices (/repo/ababe/stru/grid.py) and of [GeneralCell.supercell]
    (/repo/ababe/stru/scaffold.py:435-468).
    Simplifications: floats are exact rationals, so [np.linalg.inv] is the exact inverse
    (LinAlgError for a singular matrix); [int(n**0.5)] is the exact integer square root;
    the progress bar is a plain iterator; the rotations reported by spglib for the unit
    cell and the iteration order of Python sets are arguments. *)
From Verif Require Import Base BaseQ MGeneralCell.
Set Implicit Arguments.
Open Scope Z_scope.

(** [np.linalg.inv] *)
Definition qdet (m : mat Qc) : Qc :=
  (vx (vx m) * (vy (vy m) * vz (vz m) - vz (vy m) * vy (vz m))
  - vy (vx m) * (vx (vy m) * vz (vz m) - vz (vy m) * vx (vz m))
  + vz (vx m) * (vx (vy m) * vy (vz m) - vy (vy m) * vx (vz m)))%Qc.
(** [np.linalg.inv]: LinAlgError for a singular matrix *)
Definition inv (m : mat Qc) : res (mat Qc) :=
  let d := qdet m in
  if Qceqb d 0%Qc then Raise LinAlgError
  else
    let '(V3 (V3 a b c) (V3 p q r) (V3 x y z)) := m in
    Ok (V3 (V3 ((q*z - r*y) / d) ((c*y - b*z) / d) ((b*r - c*q) / d))
           (V3 ((r*x - p*z) / d) ((a*z - c*x) / d) ((c*p - a*r) / d))
           (V3 ((p*y - q*x) / d) ((b*x - a*y) / d) ((a*q - b*p) / d)))%Qc.

(** [.T] *)
Definition transpose A (m : mat A) : mat A :=
  V3 (V3 (vx (vx m)) (vx (vy m)) (vx (vz m)))
     (V3 (vy (vx m)) (vy (vy m)) (vy (vz m)))
     (V3 (vz (vx m)) (vz (vy m)) (vz (vz m))).

(** [range(n)] on integers (empty for n <= 0). *)
Definition zrange (n : Z) : list Z := List.map Z.of_nat (seq 0 (Z.to_nat n)).

(** grid.py:99-102 [factors]: the list handed to [set]; [reduce] of nothing and
    [int] of a complex number (negative n) are TypeErrors. *)
Definition factors_list (n : Z) : res (list Z) :=
  if n <=? 0 then Raise TypeError
  else Ok (List.concat (List.map (fun i => [i; n / i])
             (List.filter (fun i => n mod i =? 0) (List.map (fun i => i + 1) (zrange (Z.sqrt n)))))).

Section SetOrder.
(** [list(set(l))]: duplicates removed, in an order we know nothing about. *)
Variable set_list : list Z -> list Z.

(** grid.py:99-102 [factors] *)
Definition factors (n : Z) : res (list Z) := do l <- factors_list n; Ok (set_list l).

(** grid.py:104-117 [SuperLatticeGenerator.hnfs_from_n_dups], the matrices. *)
Definition hnf_mats (n : Z) : res (list (mat Z)) :=
  do a_list <- factors n;
  do ls <- mapM (fun a =>
    do c_list <- factors (n / a);
    Ok (List.concat (List.map (fun c =>
      let f := n / a / c in
      List.concat (List.map (fun b =>
        List.concat (List.map (fun d =>
          List.map (fun e => V3 (V3 a b d) (V3 0 c e) (V3 0 0 f)) (zrange f)) (zrange f)))
        (zrange c))) c_list))) a_list;
  Ok (List.concat ls).

(** grid.py:142-152 [SuperLatticeGenerator2D.hnfs_from_n_dups], the matrices. *)
Definition hnf2_mats (n : Z) : res (list (mat Z)) :=
  do a_list <- factors n;
  Ok (List.concat (List.map (fun a =>
    let c := n / a in
    List.map (fun b => V3 (V3 a b 0) (V3 0 c 0) (V3 0 0 1)) (zrange c)) a_list)).

(** grid.py:24-31 [SuperLatticeCell.__init__]; [rots] is [sym['rotations']], reported by
    spglib for the unit cell. *)
Record slcell := mkSL { sl_ub : mat Qc; sl_pos : list (vec Qc); sl_nums : list Z;
                        sl_H : mat Z; sl_rots : list (mat Z) }.
(** grid.py:24-31 [__init__] *)
Definition SuperLatticeCell_new (rots : list (mat Z)) (u : gcell) (h : mat Z) : slcell :=
  mkSL (lattice u) (positions u) (numbers u) h rots.

(** grid.py:97-117 *)
Definition hnfs_from_n_dups (rots : list (mat Z)) (u : gcell) (n : Z) : res (list slcell) :=
  do ms <- hnf_mats n; Ok (List.map (SuperLatticeCell_new rots u) ms).
(** grid.py:135-152 *)
Definition hnfs_from_n_dups_2d (rots : list (mat Z)) (u : gcell) (n : Z) : res (list slcell) :=
  do ms <- hnf2_mats n; Ok (List.map (SuperLatticeCell_new rots u) ms).

(** grid.py:42-43: [np.all(np.mod(np.around(h_mat, decimals=3), 1) == 0)] *)
Definition int_after_rounding (x : Qc) : bool := Qceqb (mod1 (around 3 x)) 0%Qc.
(** [np.all] over one row *)
Definition vall A (f : A -> bool) (v : vec A) : bool := f (vx v) && f (vy v) && f (vz v).

(** grid.py:33-46 [__eq__] *)
Fixpoint sl_eq_loop (rots : list (mat Z)) (hs ho : mat Z) : res bool :=
  match rots with
  | [] => Ok false
  | r :: t =>
      do ri <- inv (matZ (transpose r));
      let h_inv := mat_mul (matZ ho) ri in
      do hi <- inv (matZ hs);
      let h_mat := mat_mul h_inv hi in
      if vall (vall int_after_rounding) h_mat then Ok true else sl_eq_loop t hs ho
  end.
(** grid.py:33-46 [__eq__] *)
Definition sl_eq (self other : slcell) : res bool :=
  sl_eq_loop (sl_rots self) (sl_H self) (sl_H other).

(** [hnf in nodup_hnfs]: the operand order of [==] depends on the Python version
    (list item on the left since 3.9, the searched object before); objects in the list
    are distinct, so identity never short-circuits. *)
Variable item_left : bool.
(** grid.py:125, 160: [hnf not in nodup_hnfs] *)
Fixpoint sl_in (x : slcell) (l : list slcell) : res bool :=
  match l with
  | [] => Ok false
  | y :: t =>
      do b <- (if item_left then sl_eq y x else sl_eq x y);
      if b then Ok true else sl_in x t
  end.

(** grid.py:119-130 and 154-165 [hnfs_from_n]: the loop over the candidates. *)
Definition nodup_step (acc : list slcell) (x : slcell) : res (list slcell) :=
  do b <- sl_in x acc; if b then Ok acc else Ok (acc ++ [x]).
(** grid.py:119-130 *)
Definition hnfs_from_n (rots : list (mat Z)) (u : gcell) (n : Z) : res (list slcell) :=
  do hnfs <- hnfs_from_n_dups rots u n; foldM nodup_step [] hnfs.
(** grid.py:154-165 *)
Definition hnfs_from_n_2d (rots : list (mat Z)) (u : gcell) (n : Z) : res (list slcell) :=
  do hnfs <- hnfs_from_n_dups_2d rots u n; foldM nodup_step [] hnfs.
End SetOrder.

(** [np.amax] of an integer matrix *)
Definition vmax (v : vec Z) : Z := Z.max (Z.max (vx v) (vy v)) (vz v).
(** [np.amax] (scaffold.py:459) *)
Definition amax (m : mat Z) : Z := Z.max (Z.max (vmax (vx m)) (vmax (vy m))) (vmax (vz m)).

(** [itertools.product(range(n), repeat=3)] *)
Definition product3 (n : Z) : list (vec Z) :=
  List.concat (List.map (fun x =>
    List.concat (List.map (fun y => List.map (fun z => V3 x y z) (zrange n)) (zrange n))) (zrange n)).

(** scaffold.py:464-465 / grid.py:88-89: [frac >= -0.00001] and [frac < 0.99999] *)
Definition in_cell (x : Qc) : bool := Qcleb (- Q2Qc (1 # 100000)) x && Qcltb x (Q2Qc (99999 # 100000)).

(** scaffold.py:455-468 [get_frac_from_mat] = grid.py:79-92 [get_frac_from_H]; when
    [range] is empty the product of an empty 1-d array with a 3x3 matrix is a
    ValueError. *)
Definition get_frac_from_mat (scale_mat : mat Z) : res (list (vec Qc)) :=
  let m := amax scale_mat in
  do hi <- inv (matZ scale_mat);
  if m <=? 0 then Raise ValueError
  else
    let frac_all := List.map (fun p => vec_mat (vecZ p) hi) (product3 (m * 3)) in
    Ok (List.filter (vall in_cell) frac_all).

(** [scale_mat.diagonal().prod()] *)
Definition diag_prod (m : mat Z) : Z := vx (vx m) * vy (vy m) * vz (vz m).

(** [np.repeat(a, n)]: a negative count is a ValueError. *)
Definition np_repeat A (l : list A) (n : Z) : res (list A) :=
  if n <? 0 then Raise ValueError
  else Ok (List.concat (List.map (fun x => List.repeat x (Z.to_nat n)) l)).

(** [np.concatenate]: nothing to concatenate is a ValueError. *)
Definition np_concatenate A (l : list (list A)) : res (list A) :=
  match l with [] => Raise ValueError | _ => Ok (List.concat l) end.

(** scaffold.py:441-453; grid.py:58-77 has the same statements. *)
Definition build_supercell (lat : mat Qc) (pos : list (vec Qc)) (nums : list Z) (scale_mat : mat Z) : res gcell :=
  let sarr_lat := mat_mul (matZ scale_mat) lat in
  do si <- inv (matZ scale_mat);
  let o_conv_pos := List.map (fun p => vec_mat p si) pos in
  do o_pos <- get_frac_from_mat scale_mat;
  do p <- np_concatenate (List.map (fun x => List.map (fun y => vadd x y) o_pos) o_conv_pos);
  do nums' <- np_repeat nums (diag_prod scale_mat);
  GeneralCell_new sarr_lat p nums'.

(** scaffold.py:435-453 [GeneralCell.supercell] *)
Definition supercell (c : gcell) (scale_mat : mat Z) : res gcell :=
  build_supercell (lattice c) (positions c) (numbers c) scale_mat.

(** grid.py:48-77 [SuperLatticeCell.to_general_cell] *)
Definition to_general_cell (s : slcell) : res gcell :=
  build_supercell (sl_ub s) (sl_pos s) (sl_nums s) (sl_H s).
