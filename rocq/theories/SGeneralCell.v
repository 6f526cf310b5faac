(** Specification vocabulary for cells: rounding, wrapping, composition formula. *)
From Coq Require Import List ZArith String Sorted.
From Coq Require DecimalString.
From Verif Require Import BaseQ SElement.
Import ListNotations.
Open Scope Z_scope.

(** [m] is the integer nearest to [y] (the even one if two are equally near). *)
Definition nearest_even (y : Qc) (m : Z) : Prop :=
  (Zc m - Q2Qc (1#2) < y /\ y < Zc m + Q2Qc (1#2))%Qc \/
  ((y = Zc m - Q2Qc (1#2) \/ y = Zc m + Q2Qc (1#2))%Qc /\ Z.even m = true).

(** [k] is [x] rounded to thousandths and wrapped into [0,1). *)
Definition wrap3 (x k : Qc) : Prop :=
  exists m, nearest_even (x * Zc 1000)%Qc m /\ k = Q2Qc ((m mod 1000) # 1000).

Definition vwrap3 (p k : vec Qc) : Prop :=
  wrap3 (vx p) (vx k) /\ wrap3 (vy p) (vy k) /\ wrap3 (vz p) (vz k).

(** [y] is [x] reordered by the index list [r]. *)
Definition reordered {A} (x : list A) (r : list nat) (y : list A) : Prop :=
  Forall2 (fun i a => nth_error x i = Some a) r y.

(** [q] is [p] shifted by an integer vector. *)
Definition int_shift (p q : vec Qc) : Prop :=
  exists a b c : Z, q = (V3 (vx p + Zc a) (vy p + Zc b) (vz p + Zc c))%Qc.

(** The composition formula of a multiset of atomic numbers. *)
Definition formula (nums : list Z) (s : string) : Prop :=
  exists (zs : list Z) (parts : list string),
    StronglySorted Z.lt zs /\
    (forall z, In z zs <-> In z nums /\ z <> 0) /\
    Forall2 (fun z p => exists sym, is_element z sym /\
       p = String.append sym
             (DecimalString.NilEmpty.string_of_uint (Nat.to_uint (count_occ Z.eq_dec nums z)))) zs parts /\
    s = String.concat "" parts.

(** Every view of a cell describes the same lattice, positions and numbers. *)
Definition views_agree (lat : mat Qc) (pos : list (vec Qc)) (nums : list Z)
  (spg : mat Qc * list (vec Qc) * list Z) : Prop := spg = (lat, pos, nums).
