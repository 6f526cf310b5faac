(** Order of listings of number arrays and of superlattices. *)
From Coq Require Import List ZArith Sorted.
From Verif Require Import Base BaseQ SSubst SOrder.
Import ListNotations.
Open Scope nat_scope.

(** As [in_order], for generators of bare arrays. *)
Definition arrays_in_order (init : list Z) (sp : Z) (Q : list nat -> Prop) (t : trace (list Z)) : Prop :=
  exists Ss, StronglySorted before Ss /\ (forall S, In S Ss <-> Q S) /\ stop t = None /\
    Forall2 (fun S x => substituted init S sp x) Ss (items t).

(** Superlattice matrices with the same diagonal, and the order of their other entries. *)
Definition same_diagonal (m n : mat Z) : Prop :=
  vx (vx m) = vx (vx n) /\ vy (vy m) = vy (vy n) /\ vz (vz m) = vz (vz n).
Definition off_before (m n : mat Z) : Prop :=
  (vy (vx m) < vy (vx n) \/ vy (vx m) = vy (vx n) /\
   (vz (vx m) < vz (vx n) \/ vz (vx m) = vz (vx n) /\ vz (vy m) < vz (vy n)))%Z.
(** Whenever two matrices of the list share their diagonal, the smaller one comes first. *)
Definition sorted_blocks (l : list (mat Z)) : Prop :=
  StronglySorted (fun m n => same_diagonal m n -> off_before m n) l.
