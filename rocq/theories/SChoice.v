(** Agreement of two enumerations, and changes of the coordinate frame, for property C92. *)
From Coq Require Import List ZArith Permutation.
From Verif Require Import Base BaseQ SGeneralCell SSym SLattice MGeneralCell MSogen SOcc SRobust.
Import ListNotations.
Notation length := List.length.

(** The two lists represent the same classes: reordering the second makes them equal member by member
    up to [E]. *)
Definition same_classes {A B} (E : A -> B -> Prop) (l : list A) (l' : list B) : Prop :=
  exists l2, Permutation l' l2 /\ Forall2 E l l2.

(** Exchange of two species. *)
Definition exchange (u v z : Z) : Z := if Z.eqb z u then v else if Z.eqb z v then u else z.

(** A change of frame: an integral matrix with integral inverse and a shift of the origin. *)
Definition frame_change (A : mat Z * vec Qc) : Prop := exists B, same_op (op_comp B A) op_id.
(** [o'] is the operation [o] written in the new frame. *)
Definition rewritten (A o o' : mat Z * vec Qc) : Prop := same_op (op_comp o' A) (op_comp A o).
(** The same atoms in the new frame, in any order, each up to a lattice translation. *)
Definition same_atoms (A : mat Z * vec Qc) (pos : list (vec Qc)) (nums : list Z) (pos' : list (vec Qc)) (nums' : list Z) : Prop :=
  exists atoms, Permutation (combine pos nums) atoms /\
    Forall2 (fun a b => carries_exactly A (fst a) (fst b) /\ snd a = snd b) atoms (combine pos' nums').
(** The decoration [x'] of the new sites is the decoration [x] of the old ones. *)
Definition carried_over (A : mat Z * vec Qc) (pos pos' : list (vec Qc)) (x x' : list Z) : Prop :=
  length x' = length x /\ forall i j p q, nth_error pos j = Some p -> nth_error pos' i = Some q -> carries_exactly A p q -> nth_error x' i = nth_error x j.
(** A generator working on a cell with pairwise distinct sites and its exact space group. *)
Definition sound_input (ops : list (mat Z * vec Qc)) (wy : list String.string) (c : gcell) (o : occ) : Prop :=
  from_constructor c /\ distinct_sites (positions c) /\ exact_space_group ops (positions c) /\ species_kept ops (positions c) (numbers c) /\
  OccupyGenerator_new ops wy c = Ok o.
(** Two descriptions of one crystal. *)
Definition same_crystal_in (A : mat Z * vec Qc) (ops : list (mat Z * vec Qc)) (c : gcell) (ops' : list (mat Z * vec Qc)) (c' : gcell) : Prop :=
  frame_change A /\ same_atoms A (positions c) (numbers c) (positions c') (numbers c') /\
  (forall o, In o ops -> exists o', In o' ops' /\ rewritten A o o') /\ (forall o', In o' ops' -> exists o, In o ops /\ rewritten A o o').
(** Decorations of the two descriptions that are the same up to symmetry. *)
Definition same_decoration (A : mat Z * vec Qc) (c : gcell) (ops' : list (mat Z * vec Qc)) (c' : gcell) (x y : list Z) : Prop :=
  exists z, carried_over A (positions c) (positions c') x z /\ geo_equivalent ops' (positions c') z y.

(** The rotations [rots'] are the rotations [rots] written in another basis of the lattice. *)
Definition rotations_in (A : mat Z) (rots rots' : list (mat Z)) : Prop :=
  (forall r, In r rots -> exists r', In r' rots' /\ forall v, zrot r' (zrot A v) = zrot A (zrot r v)) /\
  (forall r', In r' rots' -> exists r, In r rots /\ forall v, zrot r' (zrot A v) = zrot A (zrot r v)).
(** The superlattices [m], of the old basis, and [m'], of the new one, are the same up to a rotation. *)
Definition same_superlattice_in (A : mat Z) (rots' : list (mat Z)) (m m' : mat Z) : Prop := exists k, rot_carries A m k /\ lat_equiv rots' k m'.
