(** How many atoms a smallest cell of a crystal has. *)
From Verif Require Import Base BaseQ SLattice SShape.
Set Implicit Arguments.
Unset Strict Implicit.
Open Scope nat_scope.

(** [n] is the number of atoms of a cell that shows the crystal of [c] (up to a rigid motion), has
    all its translations in the lattice, and lists no atom twice. *)
Definition primitive_size (c : cell3) (n : nat) : Prop := exists d, standardized c d /\ n = length (snd (fst d)).
