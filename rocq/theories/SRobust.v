(** What is meant by data known only up to small errors. *)
From Verif Require Import Base BaseQ SGeneralCell SSym.
Open Scope Z_scope.

(** No half-thousandth (2k+1)/2000 lies within [e] of the coordinate. *)
Definition margin1 (e x : Qc) : Prop :=
  forall k : Z, ~ (- e <= x - Q2Qc ((2 * k + 1) # 2000) /\ x - Q2Qc ((2 * k + 1) # 2000) <= e)%Qc.
Definition margin (e : Qc) (p : vec Qc) : Prop := margin1 e (vx p) /\ margin1 e (vy p) /\ margin1 e (vz p).

(** An operation reported with an inaccurate translation. *)
Definition near_op (t : Qc) (o' o : mat Z * vec Qc) : Prop := fst o' = fst o /\ near t (snd o') (snd o).

(** The absolute values in every row of the rotation add up to at most [R]. *)
Definition row_sums (R : Z) (r : mat Z) : Prop :=
  let s (u : vec Z) := Z.abs (vx u) + Z.abs (vy u) + Z.abs (vz u) in s (vx r) <= R /\ s (vy r) <= R /\ s (vz r) <= R.

(** [y] is the decoration [x] carried along by one of the operations: the atom of site j is found
    on the site onto which the operation carries site j. *)
Definition geo_equivalent (ops : list (mat Z * vec Qc)) (pos : list (vec Qc)) (x y : list Z) : Prop :=
  length y = length x /\ exists o, In o ops /\ forall i j p q, nth_error pos j = Some p -> nth_error pos i = Some q ->
    carries_exactly o p q -> nth_error y i = nth_error x j.

(** Operations carry sites to sites of the same species. *)
Definition species_kept (ops : list (mat Z * vec Qc)) (pos : list (vec Qc)) (nums : list Z) : Prop :=
  forall o i j p q, In o ops -> nth_error pos j = Some p -> nth_error pos i = Some q -> carries_exactly o p q -> nth_error nums j = nth_error nums i.

(** The data handed to the program: positions within [e] of the true ones, translations of the
    operations within [t], and images of positions computed by [f] within [d] of the exact image of
    what it is given.  The true positions keep clear of the half-thousandths by a margin [m] that
    exceeds the accumulated error. *)
Definition small_errors (m : Qc) (pos pos' : list (vec Qc)) (ops ops' : list (mat Z * vec Qc)) (f : mat Z * vec Qc -> vec Qc -> vec Qc) : Prop :=
  Forall (margin m) pos /\ exists (R : Z) (e t d : Qc),
    Forall2 (near e) pos' pos /\ Forall2 (near_op t) ops' ops /\ (forall o, In o ops -> row_sums R (fst o)) /\
    (forall o p, near d (f o p) (op_image (fst o) (snd o) p)) /\ (e <= m /\ Zc R * e + t + d <= m)%Qc.
