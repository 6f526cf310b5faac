(** How many files a command leaves in its directory. *)
From Coq Require Import String List.
From Verif Require Import MIO MCli SCli SCliOne.
Import ListNotations.
Open Scope nat_scope.

(** There are exactly [k] files below the directory. *)
Definition files_below (dir : string) (fs : files) (k : nat) : Prop :=
  exists ps, NoDup ps /\ List.length ps = k /\ forall p, In p ps <-> below dir p /\ fs p <> None.
(** There is none. *)
Definition nothing_below (dir : string) (fs : files) : Prop := forall p, below dir p -> fs p = None.
(** The first [k] draws differ. *)
Definition draws_differ (suffix : nat -> string) (k : nat) : Prop := forall i j, i < j < k -> suffix i <> suffix j.
