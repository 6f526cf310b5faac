(** Specification vocabulary for ModifiedCell: well-formed heaps, what a cell contains,
    Python list operations as relations, spheres. *)
From Verif Require Import Base BaseQ MElement MModCell.
Set Implicit Arguments.
Open Scope Z_scope.
Open Scope list_scope.

(** [c] and [a] refer to existing objects. *)
Definition is_cell (h : heap) (c : nat) : Prop := (c < length (h_cell h))%nat.
Definition is_site (h : heap) (a : nat) : Prop := (a < length (h_site h))%nat.

(** Every reference leads to an object; no two cells hold the same list object. *)
Definition wf_heap (h : heap) : Prop :=
  (forall m, In m (h_cell h) -> (mc_list m < length (h_list h))%nat) /\
  NoDup (List.map mc_list (h_cell h)) /\
  (forall l a, In l (h_list h) -> In a l -> is_site h a).

(** What a cell contains: lattice, then position and species of each site in order. *)
Definition contains (h : heap) (c : nat) (lat : mat Qc) (ss : list site) : Prop :=
  exists m refs, nth_error (h_cell h) c = Some m /\ mc_lattice m = lat /\
    nth_error (h_list h) (mc_list m) = Some refs /\
    Forall2 (fun a s => nth_error (h_site h) a = Some s) refs ss.

(** the objects a cell holds *)
Definition holds (h : heap) (c : nat) (rs : list nat) : Prop :=
  exists m, nth_error (h_cell h) c = Some m /\ nth_error (h_list h) (mc_list m) = Some rs.

(** Position [j] meant by index [i] in a list of [n] items. *)
Definition py_index (n : nat) (i : Z) (j : nat) : Prop :=
  (j < n)%nat /\ (Z.of_nat j = i \/ Z.of_nat j = i + Z.of_nat n).
Definition no_index (n : nat) (i : Z) : Prop := i < - Z.of_nat n \/ Z.of_nat n <= i.

(** Where [list.insert] puts a new item. *)
Definition insert_index (n : nat) (i : Z) (j : nat) : Prop :=
  (0 <= i <= Z.of_nat n /\ Z.of_nat j = i) \/ (Z.of_nat n < i /\ j = n) \/
  (- Z.of_nat n <= i < 0 /\ Z.of_nat j = i + Z.of_nat n) \/ (i < - Z.of_nat n /\ j = 0%nat).

(** [l'] keeps exactly the items of [l] whose position (counted from [k]) is not listed. *)
Inductive kept_except (bad : list Z) : Z -> list nat -> list nat -> Prop :=
| ke_nil : forall k, kept_except bad k [] []
| ke_drop : forall k x l l', In k bad -> kept_except bad (k + 1) l l' -> kept_except bad k (x :: l) l'
| ke_keep : forall k x l l', ~ In k bad -> kept_except bad (k + 1) l l' -> kept_except bad k (x :: l) (x :: l').

(** One Python list operation: list before, list after, value. *)
Inductive list_effect : list_op -> list nat -> list nat -> outcome -> Prop :=
| le_append : forall s l, list_effect (OAppend s) l (l ++ [s]) RNone
| le_insert : forall i s l1 l2, insert_index (length (l1 ++ l2)) i (length l1) ->
    list_effect (OInsert i s) (l1 ++ l2) (l1 ++ s :: l2) RNone
| le_pop : forall i l1 x l2, py_index (length (l1 ++ x :: l2)) i (length l1) ->
    list_effect (OPop i) (l1 ++ x :: l2) (l1 ++ l2) (RSite x)
| le_pop_err : forall i l, no_index (length l) i -> list_effect (OPop i) l l (RExn IndexError)
| le_extend : forall xs l, list_effect (OExtend xs) l (l ++ xs) RNone
| le_set : forall i s l1 x l2, py_index (length (l1 ++ x :: l2)) i (length l1) ->
    list_effect (OSet i s) (l1 ++ x :: l2) (l1 ++ s :: l2) RNone
| le_set_err : forall i s l, no_index (length l) i -> list_effect (OSet i s) l l (RExn IndexError)
| le_get : forall i l1 x l2, py_index (length (l1 ++ x :: l2)) i (length l1) ->
    list_effect (OGet i) (l1 ++ x :: l2) (l1 ++ x :: l2) (RSite x)
| le_get_err : forall i l, no_index (length l) i -> list_effect (OGet i) l l (RExn IndexError)
| le_del : forall i l1 x l2, py_index (length (l1 ++ x :: l2)) i (length l1) ->
    list_effect (ODel i) (l1 ++ x :: l2) (l1 ++ l2) RNone
| le_del_err : forall i l, no_index (length l) i -> list_effect (ODel i) l l (RExn IndexError)
| le_append_site : forall s l, list_effect (OAppendSite s) l (l ++ [s]) RSelf
| le_remove_site : forall i l1 x l2, py_index (length (l1 ++ x :: l2)) i (length l1) ->
    list_effect (ORemoveSite i) (l1 ++ x :: l2) (l1 ++ l2) RSelf
| le_remove_site_err : forall i l, no_index (length l) i -> list_effect (ORemoveSite i) l l (RExn IndexError)
| le_remove_sites : forall bad l l', kept_except bad 0 l l' -> list_effect (ORemoveSites bad) l l' RSelf
| le_append_sites : forall xs l, list_effect (OAppendSites xs) l (l ++ xs) RSelf.

(** A sequence of them. *)
Inductive list_history : list list_op -> list nat -> list nat -> list outcome -> Prop :=
| lh_nil : forall l, list_history [] l l []
| lh_cons : forall o os l l1 l2 x xs, list_effect o l l1 x -> list_history os l1 l2 xs ->
    list_history (o :: os) l l2 (x :: xs).

(** Objects handed to a statement. *)
Definition op_args (o : list_op) : list nat :=
  match o with
  | OAppend s | OInsert _ s | OSet _ s | OAppendSite s => [s]
  | OExtend l | OAppendSites l => l
  | OPop _ | OGet _ | ODel _ | ORemoveSite _ | ORemoveSites _ => []
  end.
Definition stmt_args (s : stmt) : list nat := match s with SList _ o => op_args o | _ => [] end.
(** The cell a statement changes. *)
Definition stmt_target (s : stmt) : option nat :=
  match s with
  | SList c _ | STranslate c _ _ | SPerturb c _ _ | SSetPosition c _ _ | SSetElement c _ _ | SClarify _ _ _ c => Some c
  | SNewSite _ _ | SNewCell _ _ _ | SCopy _ => None
  end.

(** Cells [c] and [d] have no Site object in common. *)
Definition unshared (h : heap) (c d : nat) : Prop :=
  forall rc rd a, holds h c rc -> holds h d rd -> In a rc -> In a rd -> False.

(** Euclidean length of [w] is less than [r]. *)
Definition shorter (w : vec Qc) (r : Qc) : Prop :=
  (0 < r /\ vx w * vx w + vy w * vy w + vz w * vz w < r * r)%Qc.
(** Some image of [p] (offsets -1, 0, 1) is nearer than [r] to [center]. *)
Definition near_image (lat : mat Qc) (p center : vec Qc) (r : Qc) : Prop :=
  exists a b c, -1 <= a <= 1 /\ -1 <= b <= 1 /\ -1 <= c <= 1 /\
    shorter (vec_mat (V3 (vx p + Zc a - vx center) (vy p + Zc b - vy center) (vz p + Zc c - vz center))%Qc lat) r.
(** species filter *)
Definition of_species (ele : option specie) (s : site) : Prop :=
  match ele with None => True | Some e => sp_Z (s_ele s) = sp_Z e end.

(** [l'] is [l] without the items satisfying [P], order kept. *)
Inductive without A (P : A -> Prop) : list A -> list A -> Prop :=
| w_nil : without P [] []
| w_drop : forall x l l', P x -> without P l l' -> without P (x :: l) l'
| w_keep : forall x l l', ~ P x -> without P l l' -> without P (x :: l) (x :: l').

(** numpy closeness of [x] to the reference [y] *)
Definition np_close (x y : Qc) : Prop :=
  exists d ay, (d = x - y \/ d = y - x)%Qc /\ (0 <= d)%Qc /\ (ay = y \/ ay = - y)%Qc /\ (0 <= ay)%Qc /\
    (d <= Q2Qc (1 # 100000000) + Q2Qc (1 # 100000) * ay)%Qc.
Definition vec_close (p q : vec Qc) : Prop := np_close (vx p) (vx q) /\ np_close (vy p) (vy q) /\ np_close (vz p) (vz q).
Definition lat_close (p q : mat Qc) : Prop := vec_close (vx p) (vx q) /\ vec_close (vy p) (vy q) /\ vec_close (vz p) (vz q).
Definition site_close (s t : site) : Prop :=
  vec_close (s_pos s) (s_pos t) /\ np_close (Zc (sp_Z (s_ele s))) (Zc (sp_Z (s_ele t))).

(** Every statement of a program refers to objects that exist when it runs. *)
Definition stmt_ok (h : heap) (s : stmt) : Prop :=
  (forall c, stmt_target s = Some c -> is_cell h c) /\
  (forall a, In a (stmt_args s) -> is_site h a) /\
  (forall c, s = SCopy c -> is_cell h c).
Fixpoint prog_ok (ss : list stmt) (h : heap) : Prop :=
  match ss with [] => True | s :: t => stmt_ok h s /\ prog_ok t (exec s h) end.

(** Volume spanned by the three lattice vectors. *)
Definition cross (a b : vec Qc) : vec Qc :=
  (V3 (vy a * vz b - vz a * vy b) (vz a * vx b - vx a * vz b) (vx a * vy b - vy a * vx b))%Qc.
Definition volume (L : mat Qc) : Qc := vdot (vx L) (cross (vy L) (vz L)).

(** The Cartesian position of a site is displaced by [v]; the species stays. *)
Definition displaced (L : mat Qc) (v : vec Qc) (s s' : site) : Prop :=
  s_ele s' = s_ele s /\ vec_mat (s_pos s') L = vadd (vec_mat (s_pos s) L) v.

(** [v] scaled by [k / n] *)
Definition rescaled (k n : Qc) (v : vec Qc) : vec Qc := (V3 (vx v / n * k) (vy v / n * k) (vz v / n * k))%Qc.
Definition length2 (v : vec Qc) : Qc := (vx v * vx v + vy v * vy v + vz v * vz v)%Qc.

(** Lists that numpy can compare: equal lengths, or one item against any positive number;
    the items it then compares. *)
Definition comparable (n m : nat) : Prop := n = m \/ (n = 1 /\ m <> 0)%nat \/ (m = 1 /\ n <> 0)%nat.
Definition paired A (R : A -> A -> Prop) (a b : list A) : Prop :=
  Forall2 R a b \/ (exists x, a = [x] /\ b <> [] /\ Forall (R x) b) \/ (exists y, b = [y] /\ a <> [] /\ Forall (fun x => R x y) a).
