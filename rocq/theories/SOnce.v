(** When a symmetry group is complete, and when a derivative structure has no shorter period. *)
From Coq Require Import String.
From Verif Require Import Base BaseQ SLattice SSym SShape SDeriv MGeneralCell MHnf MSogen.
Set Implicit Arguments.
Unset Strict Implicit.
Open Scope nat_scope.

(** Every rotation (or reflection) with a shift that keeps the crystal of [c] and its lattice is
    one of [ops], up to a lattice translation. *)
Definition all_symmetries (ops : list (mat Z * vec Qc)) (c : cell3) : Prop :=
  forall q w, orthogonal q -> keeps_crystal c q w -> (forall t, lattice_vector c t <-> lattice_vector c (vec_mat t q)) ->
    exists o s, In o ops /\
      forall p, vadd (vec_mat (vec_mat p (fst (fst c))) q) w = vec_mat (vadd (op_image (fst o) (snd o) p) (vecZ s)) (fst (fst c)).

(** All translations of the crystal [C] are periods of the superlattice [m]. *)
Definition primitive_along (L : mat Qc) (m : mat Z) (C : crystal) : Prop :=
  forall t, (forall z v, C z v -> C z (vadd v t)) -> exists k, t = period L m k.

(** [g] is structure number [b] that the filter [gen_2nodup_gen] leaves of the decorations [dup] of the
    supercell of superlattice number [a] of [out]. *)
Definition listed_at (spg : gcell -> list (mat Z * vec Qc)) (wy : gcell -> list string) (hash : list Z -> Z)
    (dup : occ -> trace gcell) (out : list slcell) (a b : nat) (g : gcell) : Prop :=
  exists s c o, nth_error out a = Some s /\ to_general_cell s = Ok c /\ OccupyGenerator_new (spg c) (wy c) c = Ok o /\
    nth_error (items (gen_2nodup_gen hash o (dup o))) b = Some g.
