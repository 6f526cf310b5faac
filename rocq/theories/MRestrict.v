(** Model of /repo/ababe/stru/restriction.py (whole file).
    Distances are irrational in general: they are represented by their squares, and the
    comparison [mindist > target_dist] is made on squares. *)
From Coq Require Import String Ascii.
From Verif Require Import Base BaseQ MGeneralCell MHnf.
Set Implicit Arguments.
Open Scope Z_scope.

(** squared Euclidean distance *)
Definition dist2 (a b : vec Qc) : Qc := let d := vsub a b in vdot d d.

(** [scipy.spatial.distance.pdist]: the pairs i < j, squared distances. *)
Fixpoint pdist (l : list (vec Qc)) : list Qc :=
  match l with
  | [] => []
  | x :: t => List.map (dist2 x) t ++ pdist t
  end.

(** [np.min]: nothing to minimise is a ValueError. *)
Definition Qcmin2 (a b : Qc) : Qc := if Qcleb a b then a else b.
(** [np.min]: ValueError if empty *)
Definition np_min (l : list Qc) : res Qc :=
  match l with [] => Raise ValueError | x :: t => Ok (fold_left Qcmin2 t x) end.

(** square root of [d2] greater than [t] *)
Definition sqrt_gt (d2 t : Qc) : bool := Qcltb t 0%Qc || Qcltb (t * t)%Qc d2.

(** restriction.py:34-36 *)
Definition scale2 : mat Z := V3 (V3 2 0 0) (V3 0 2 0) (V3 0 0 2).

(** restriction.py:29-45 [MinDistanceRestriction]; [target_ele] is an atomic number, or
    [None] for Python's None (all atoms). *)
Definition min_distance_satisfied (target_ele : option Z) (target_dist : Qc) (c : gcell) : res bool :=
  do super_gcell <- supercell c scale2;
  do target_cart <- get_cartesian super_gcell target_ele;
  do mindist <- np_min (pdist target_cart);
  Ok (sqrt_gt mindist target_dist).

(** [re.findall('\d+', s)] on ASCII text. *)
Definition is_digit (c : ascii) : bool :=
  let n := N_of_ascii c in ((48 <=? n) && (n <=? 57))%N.
(** [re.findall(r'\d+', s)] (restriction.py:59) *)
Fixpoint findall_digits (acc : string) (s : string) : list string :=
  match s with
  | EmptyString => match acc with EmptyString => [] | _ => [acc] end
  | String c r =>
      if is_digit c then findall_digits (String.append acc (String c EmptyString)) r
      else match acc with EmptyString => findall_digits EmptyString r
                        | _ => acc :: findall_digits EmptyString r end
  end.
(** [int(digits)] *)
Definition digit_val (c : ascii) : Z := Z.of_N (N_of_ascii c) - 48.
(** [int] of a digit string *)
Fixpoint int_of_digits (acc : Z) (s : string) : Z :=
  match s with EmptyString => acc | String c r => int_of_digits (acc * 10 + digit_val c) r end.

(** restriction.py:47-62 [SpaceGroupRestriction]; [spg] is what [gcell.get_spacegroup()]
    returned ([None] when spglib fails; [re.findall] then raises TypeError). *)
Definition space_group_satisfied (l_sp : list Z) (spg : option string) : res bool :=
  match spg with None => Raise TypeError | Some spg =>
  do first <- get_nth (findall_digits EmptyString spg) 0;
  Ok (memZ (int_of_digits 0 first) l_sp)
  end.
