(** Specification vocabulary for property C90. *)
From Verif Require Import Base BaseQ MGrid.
Open Scope Z_scope.

(** Some entry of the matrix is positive. *)
Definition some_pos (m : mat Z) : Prop :=
  0 < vx (vx m) \/ 0 < vy (vx m) \/ 0 < vz (vx m) \/ 0 < vx (vy m) \/ 0 < vy (vy m) \/ 0 < vz (vy m) \/
  0 < vx (vz m) \/ 0 < vy (vz m) \/ 0 < vz (vz m).

(** All planes have the same number of rows and all rows the same number of entries. *)
Definition regular {A} (a : list (list (list A))) : Prop :=
  (forall p q, In p a -> In q a -> length p = length q) /\
  (forall p q r s, In p a -> In q a -> In r p -> In s q -> length r = length s).
(** The nested list has no entry. *)
Definition hollow {A} (a : list (list (list A))) : Prop := forall p r x, In p a -> In r p -> ~ In x r.
