(** Derivative structures: decorations of the sites of a parent crystal that repeat along a
    superlattice.  A crystal is a relation "an atom of species z sits at the point v";
    nothing here refers to supercells or to the code. *)
From Verif Require Import Base BaseQ SLattice SSym SShape MGeneralCell.
Set Implicit Arguments.
Unset Strict Implicit.
Open Scope nat_scope.

Definition crystal : Type := Z -> vec Qc -> Prop.

(** The translation by the integer combination [k] of the rows of [m], for the parent lattice [L]. *)
Definition period (L : mat Qc) (m : mat Z) (k : vec Z) : vec Qc := vec_mat (vecZ (zcomb k m)) L.

(** [C] puts on every site of the parent [u], and nowhere else, exactly one atom, which is
    the parent's or one of the species [news]; and [C] repeats along the superlattice [m]. *)
Record derivative (u : cell3) (m : mat Z) (news : list Z) (C : crystal) : Prop := {
  d_sites : forall v, (exists z, C z v) <-> (exists z, atom_at u z v);
  d_one : forall v z z', C z v -> C z' v -> z = z';
  d_species : forall v z, C z v -> In z news \/ atom_at u z v;
  d_period : forall k z v, C z v -> C z (vadd v (period (fst (fst u)) m k)) }.

(** An atom of the parent was replaced by one of species [sp] at [v]. *)
Definition replaced (u : cell3) (sp : Z) (C : crystal) (v : vec Qc) : Prop := C sp v /\ ~ atom_at u sp v.
(** [subs] lists the sites of one period where it was. *)
Definition replaced_per_period (u : cell3) (m : mat Z) (sp : Z) (C : crystal) (subs : list (vec Qc)) : Prop :=
  Forall (replaced u sp C) subs /\
  (forall v, replaced u sp C v -> exists a k, In a subs /\ v = vadd a (period (fst (fst u)) m k)) /\
  ForallOrdPairs (fun a b => forall k, b <> vadd a (period (fst (fst u)) m k)) subs.

(** [C] and [D] differ by a symmetry of the parent [u] only: by a rotation (or reflection) and a
    shift that carry the parent crystal onto itself. *)
Definition keeps_crystal (u : cell3) (q : mat Qc) (t : vec Qc) : Prop :=
  forall z v, atom_at u z v <-> atom_at u z (vadd (vec_mat v q) t).
Definition same_structure (u : cell3) (C D : crystal) : Prop :=
  exists q t, orthogonal q /\ keeps_crystal u q t /\ forall z v, C z v <-> D z (vadd (vec_mat v q) t).

(** The operation, given in fractional coordinates, is a rigid motion of space. *)
Definition rigid_op (L : mat Qc) (o : mat Z * vec Qc) : Prop :=
  exists q w, orthogonal q /\
    forall p, vec_mat (op_image (fst o) (snd o) p) L = vadd (vec_mat (vec_mat p L) q) w.

(** [ops] are symmetry operations of the cell [c], a group: what is asked of spglib. *)
Definition symmetries_of (ops : list (mat Z * vec Qc)) (c : gcell) : Prop :=
  SSym.distinct_sites (positions c) /\ exact_space_group ops (positions c) /\
  (forall o i j p q, In o ops -> nth_error (positions c) j = Some p -> nth_error (positions c) i = Some q ->
     carries o p q -> nth_error (numbers c) j = nth_error (numbers c) i) /\
  forall o, In o ops -> rigid_op (lattice c) o.

(** The crystal of [g] is a derivative structure of [u] along [h]; each pair of [counts] is a
    new species and the number of sites of a period it replaces, if it is foreign to [u]. *)
Definition shows_derivative (u : gcell) (h : mat Z) (counts : list (Z * nat)) (g : gcell) : Prop :=
  derivative (cell_of u) h (map fst counts) (atom_at (cell_of g)) /\
  forall sp k, In (sp, k) counts -> ~ In sp (numbers u) ->
    exists subs, length subs = k /\ replaced_per_period (cell_of u) h sp (atom_at (cell_of g)) subs.
