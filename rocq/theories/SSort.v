(** What a stable argsort by (x,y,z) is, independently of any algorithm. *)
From Coq Require Import List Permutation.
From Verif Require Import BaseQ.
Import ListNotations.

Definition vlt (a b : vec Qc) : Prop :=
  (vx a < vx b)%Qc \/
  (vx a = vx b /\ ((vy a < vy b)%Qc \/ (vy a = vy b /\ (vz a < vz b)%Qc))).

(** [r] lists the positions 0..n-1 such that keys increase and equal keys keep their
    original order. *)
Definition stable_argsort (ks : list (vec Qc)) (r : list nat) : Prop :=
  Permutation r (seq 0 (length ks)) /\
  forall a b i j ki kj, (a < b)%nat -> nth_error r a = Some i -> nth_error r b = Some j ->
    nth_error ks i = Some ki -> nth_error ks j = Some kj ->
    vlt ki kj \/ (ki = kj /\ (i < j)%nat).
