(** Rigid motions of crystals, and what spglib's [standardize_cell(to_primitive=True)]
    guarantees about its answer. *)
From Verif Require Import Base BaseQ SLattice SModCell MGeneralCell.
Set Implicit Arguments.
Unset Strict Implicit.
Open Scope nat_scope.

Definition cell3 : Type := mat Qc * list (vec Qc) * list Z.
Definition atom_at (c : cell3) (z : Z) (v : vec Qc) : Prop := let '(lat, pos, nums) := c in crystal_atom lat pos nums z v.
Definition one : mat Qc := (V3 (V3 1 0 0) (V3 0 1 0) (V3 0 0 1))%Qc.
Definition flip (m : mat Qc) : mat Qc :=
  V3 (V3 (vx (vx m)) (vx (vy m)) (vx (vz m))) (V3 (vy (vx m)) (vy (vy m)) (vy (vz m))) (V3 (vz (vx m)) (vz (vy m)) (vz (vz m))).
Definition orthogonal (q : mat Qc) : Prop := mat_mul q (flip q) = one /\ mat_mul (flip q) q = one.
(** The crystals of [c] and [d] differ by a rotation (or reflection) and a shift only. *)
Definition same_up_to_motion (c d : cell3) : Prop :=
  exists q t, orthogonal q /\ forall z v, atom_at d z v <-> atom_at c z (vadd (vec_mat v q) t).
(** Moreover the lattices are the same. *)
Definition lattice_vector (c : cell3) (w : vec Qc) : Prop := exists s, w = vec_mat (vecZ s) (fst (fst c)).
Definition same_cell_up_to_motion (c d : cell3) : Prop :=
  exists q t, orthogonal q /\ (forall z v, atom_at d z v <-> atom_at c z (vadd (vec_mat v q) t)) /\
    forall w, lattice_vector d w <-> lattice_vector c (vec_mat w q).
(** Translations that keep the crystal; cells whose lattice has all of them. *)
Definition keeps (c : cell3) (t : vec Qc) : Prop := forall z v, atom_at c z v -> atom_at c z (vadd v t).
Definition smallest (c : cell3) : Prop := forall t, keeps c t -> lattice_vector c t.
(** No atom is listed twice. *)
Definition distinct_sites (lat : mat Qc) (pos : list (vec Qc)) : Prop :=
  forall i j p p' s, nth_error pos i = Some p -> nth_error pos j = Some p' ->
    vec_mat p lat = vec_mat (vadd p' (vecZ s)) lat -> i = j.
Definition standardized (c d : cell3) : Prop :=
  let '(lat, pos, nums) := d in
  pos <> [] /\ length pos = length nums /\ same_up_to_motion c d /\ smallest d /\ distinct_sites lat pos.
(** The positions of [pos] with their own places as labels. *)
Definition labelled (lat : mat Qc) (pos : list (vec Qc)) (n : nat) : cell3 := (lat, pos, map Z.of_nat (seq 0 n)).
Definition cell_of (g : gcell) : cell3 := (lattice g, positions g, numbers g).
(** What is asked of spglib for cells whose species are all different. *)
Definition standardizes (std : cell3 -> cell3) : Prop := forall lat pos nums, length pos = length nums -> pos <> [] ->
  NoDup nums -> volume lat <> 0%Qc -> distinct_sites lat pos -> standardized (lat, pos, nums) (std (lat, pos, nums)).
