(** Specification: which sequences of positions a random arrangement may give, and connected
    sets of positions. *)
From Verif Require Import Base SArrange.
Set Implicit Arguments.
Open Scope nat_scope.

(** A sequence of distinct positions beginning with [start], in which the neighbours of every
    position can be asked for, and every later position was among the answers about an
    earlier one ([nbrs k] is the [k]-th answer). *)
Definition growable V (nbrs : nat -> V -> res (list V)) (start : V) (path : list V) : Prop :=
  nth_error path 0 = Some start /\ NoDup path /\
  (forall i p, nth_error path i = Some p -> exists l, nbrs i p = Ok l) /\
  (forall i p, 0 < i -> nth_error path i = Some p ->
     exists j q l, j < i /\ nth_error path j = Some q /\ nbrs j q = Ok l /\ In p l).

(** [x] is linked to [start] by neighbours within [S]. *)
Inductive linked V (N : V -> V -> Prop) (S : list V) (start : V) : V -> Prop :=
| linked_start : In start S -> linked N S start start
| linked_next x y : linked N S start x -> N x y -> In y S -> linked N S start y.
(** A connected set of positions containing [start]. *)
Definition connected V (N : V -> V -> Prop) (start : V) (S : list V) : Prop :=
  In start S /\ NoDup S /\ forall x, In x S -> linked N S start x.
