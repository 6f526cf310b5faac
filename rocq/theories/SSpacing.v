(** Distances between lattice planes, for property C40. *)
From Verif Require Import Base BaseQ SModCell.

(** The planes spanned by two of the lattice vectors are at least [t] apart, for each of the three
    choices: the volume of the cell over the area of the face. *)
Definition spaced (t : Qc) (L : mat Qc) : Prop :=
  volume L <> 0%Qc /\
  (t * t * length2 (cross (vy L) (vz L)) <= volume L * volume L)%Qc /\
  (t * t * length2 (cross (vz L) (vx L)) <= volume L * volume L)%Qc /\
  (t * t * length2 (cross (vx L) (vy L)) <= volume L * volume L)%Qc.
