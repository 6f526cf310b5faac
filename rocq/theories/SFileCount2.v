(** The suffixes drawn. *)
From Coq Require Import String List.
From Verif Require Import SBurn.
Import ListNotations.
Open Scope nat_scope.

(** Among the first [k] draws there are exactly [j] different ones. *)
Definition different_draws (suffix : nat -> string) (k j : nat) : Prop :=
  exists S, lists_once (fun s => exists i, i < k /\ s = suffix i) S /\ List.length S = j.
