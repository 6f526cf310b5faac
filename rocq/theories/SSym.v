(** Specification of permutation actions, groups, equivalence, transversals, and of the
    geometric action of a symmetry operation. *)
From Coq Require Import List ZArith Permutation.
From Verif Require Import BaseQ SGeneralCell.
Import ListNotations.

(** A finite set of permutations of 0..n-1 (in one-line notation) that is a group. *)
Definition perm_group (n : nat) (G : list (list nat)) : Prop :=
  (forall p, In p G -> Permutation p (seq 0 n)) /\
  In (seq 0 n) G /\
  (forall p q, In p G -> In q G -> exists r, In r G /\
     forall i j, nth_error q i = Some j -> nth_error r i = nth_error p j) /\
  (forall p, In p G -> exists r, In r G /\
     forall i j, nth_error p i = Some j -> nth_error r j = Some i).

(** [y] is [x] transported by some permutation of [G]: y[i] = x[p[i]]. *)
Definition equivalent {A} (G : list (list nat)) (x y : list A) : Prop :=
  exists p, In p G /\ reordered x p y.

(** Every permutation of [G] leaves [x] unchanged. *)
Definition preserves {A} (G : list (list nat)) (x : list A) : Prop :=
  forall p, In p G -> reordered x p x.

(** [out] contains exactly one member of every class of [E] inside [D]. *)
Definition transversal {A} (E : A -> A -> Prop) (D : A -> Prop) (out : list A) : Prop :=
  Forall D out /\
  (forall x, D x -> exists y, In y out /\ E x y) /\
  ForallOrdPairs (fun a b => ~ E a b /\ ~ E b a) out.

(** [h] takes different values on different members of [D]. *)
Definition collision_free (h : list Z -> Z) (D : list Z -> Prop) : Prop :=
  forall x y, D x -> D y -> h x = h y -> x = y.

(** Image of a fractional position under a symmetry operation (r, t). *)
Definition op_image (r : mat Z) (t p : vec Qc) : vec Qc :=
  (V3 (Zc (vx (vx r)) * vx p + Zc (vy (vx r)) * vy p + Zc (vz (vx r)) * vz p + vx t)
      (Zc (vx (vy r)) * vx p + Zc (vy (vy r)) * vy p + Zc (vz (vy r)) * vz p + vy t)
      (Zc (vx (vz r)) * vx p + Zc (vy (vz r)) * vy p + Zc (vz (vz r)) * vz p + vz t))%Qc.

(** The operation carries position [p] onto position [q]: equal rounded wrapped
    coordinates. *)
Definition carries (o : mat Z * vec Qc) (p q : vec Qc) : Prop :=
  exists k, vwrap3 (op_image (fst o) (snd o) p) k /\ vwrap3 q k.

(** Exact version: equal up to a lattice translation. *)
Definition carries_exactly (o : mat Z * vec Qc) (p q : vec Qc) : Prop :=
  int_shift (op_image (fst o) (snd o) p) q.

(** The operation maps the rounded site set onto itself. *)
Definition maps_sites (o : mat Z * vec Qc) (pos : list (vec Qc)) : Prop :=
  (forall p, In p pos -> exists q, In q pos /\ carries o p q) /\
  (forall q, In q pos -> exists p, In p pos /\ carries o p q).

(** Pairwise distinct rounded wrapped coordinates. *)
Definition distinct_sites (pos : list (vec Qc)) : Prop :=
  forall ks, Forall2 vwrap3 pos ks -> NoDup ks.

(** The operations are closed under identity, composition and inverse as far as their
    effect on sites is concerned. *)
Definition ops_group (ops : list (mat Z * vec Qc)) (pos : list (vec Qc)) : Prop :=
  (exists o, In o ops /\ forall p, In p pos -> carries o p p) /\
  (forall o1 o2, In o1 ops -> In o2 ops -> exists o3, In o3 ops /\
     forall p q s, In p pos -> In q pos -> In s pos -> carries o1 p q -> carries o2 q s -> carries o3 p s) /\
  (forall o, In o ops -> exists o', In o' ops /\
     forall p q, In p pos -> In q pos -> carries o p q -> carries o' q p).

(** Composition of operations (first [b], then [a]) and equality modulo lattice
    translations. *)
Definition op_comp (a b : mat Z * vec Qc) : mat Z * vec Qc :=
  let row (u : vec Z) (m : mat Z) :=
    (V3 (vx u * vx (vx m) + vy u * vx (vy m) + vz u * vx (vz m))
        (vx u * vy (vx m) + vy u * vy (vy m) + vz u * vy (vz m))
        (vx u * vz (vx m) + vy u * vz (vy m) + vz u * vz (vz m)))%Z in
  (V3 (row (vx (fst a)) (fst b)) (row (vy (fst a)) (fst b)) (row (vz (fst a)) (fst b)),
   op_image (fst a) (snd a) (snd b)).
Definition op_id : mat Z * vec Qc := (V3 (V3 1 0 0) (V3 0 1 0) (V3 0 0 1), v0)%Z.
Definition same_op (a b : mat Z * vec Qc) : Prop := fst a = fst b /\ int_shift (snd a) (snd b).

(** What a space group reported without error means: the operations form a group modulo
    lattice translations and each of them maps every site exactly onto a site. *)
Definition exact_space_group (ops : list (mat Z * vec Qc)) (pos : list (vec Qc)) : Prop :=
  (exists o, In o ops /\ same_op op_id o) /\
  (forall a b, In a ops -> In b ops -> exists c, In c ops /\ same_op (op_comp a b) c) /\
  (forall a, In a ops -> exists b, In b ops /\ same_op (op_comp b a) op_id) /\
  (forall o p, In o ops -> In p pos -> exists q, In q pos /\ carries_exactly o p q).

(** Every coordinate of [p] is within [eps] of that of [q], modulo lattice translations. *)
Definition near1 (eps x y : Qc) : Prop := exists a : Z, (- eps <= x - y - Zc a /\ x - y - Zc a <= eps)%Qc.
Definition near (eps : Qc) (p q : vec Qc) : Prop :=
  near1 eps (vx p) (vx q) /\ near1 eps (vy p) (vy q) /\ near1 eps (vz p) (vz q).
