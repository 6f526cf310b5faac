(** Specification vocabulary for the buckyball: what the closure of a set of decorations is,
    and geometry of the ball.  Independent of the model. *)
From Coq Require Import List ZArith Permutation.
From Verif Require Import Base BaseQ SSym.
From Verif Require SIO.
Import ListNotations.
Open Scope nat_scope.

(** All images of members of [D] under [G]. *)
Definition images (G : list (list nat)) (D : list Z -> Prop) (y : list Z) : Prop :=
  exists x, D x /\ equivalent G x y.

(** Squared distance of the sites [i] and [j] in a cubic box of side [a] (no periodic
    images: the ball does not touch the walls). *)
Definition sq (x : Qc) : Qc := (x * x)%Qc.
Definition dist2 (a : Qc) (p q : vec Qc) : Qc :=
  (sq (a * (vx p - vx q)) + sq (a * (vy p - vy q)) + sq (a * (vz p - vz q)))%Qc.

(** [d] is the squared distance of sites [i] and [j]. *)
Definition site_dist2 (a : Qc) (pos : list (vec Qc)) (i j : nat) (d : Qc) : Prop :=
  exists p q, nth_error pos i = Some p /\ nth_error pos j = Some q /\ d = dist2 a p q.

(** Two different sites at most 1.75 apart (the bonds of the ball are 1.61 and 1.67 long,
    the next distance is 2.7). *)
Definition bonded (a : Qc) (pos : list (vec Qc)) (i j : nat) : Prop :=
  i <> j /\ exists d, site_dist2 a pos i j d /\ (d <= Q2Qc (30625 # 10000))%Qc.

(** A permutation of the sites that maps bonds to bonds. *)
Definition bond_symmetry (a : Qc) (pos : list (vec Qc)) (p : list nat) : Prop :=
  Permutation p (seq 0 (length pos)) /\
  forall i j i' j', nth_error p i = Some i' -> nth_error p j = Some j' ->
    bonded a pos i j -> bonded a pos i' j'.

(** The permutation [q] is [p] after renaming the sites by [r]. *)
Definition renamed (r p q : list nat) : Prop :=
  length q = length p /\
  forall i j i' j', nth_error p i = Some j -> nth_error r i = Some i' -> nth_error r j = Some j' ->
    nth_error q i' = Some j'.

(** The key by which the buckyball sorts a coordinate: SIO.rounded to five decimals, reduced
    modulo 1, SIO.rounded to three decimals. *)
Definition ball_key (x k : Qc) : Prop := exists r m (a : Z),
  SIO.rounded 5 x r /\ r = (m + Zc a)%Qc /\ (0 <= m)%Qc /\ (m < 1)%Qc /\ SIO.rounded 3 m k.
Definition ball_keys (p k : vec Qc) : Prop := ball_key (vx p) (vx k) /\ ball_key (vy p) (vy k) /\ ball_key (vz p) (vz k).
