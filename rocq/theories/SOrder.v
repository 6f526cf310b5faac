(** In which order structures are listed, and which member represents a class. *)
From Coq Require Import List ZArith Sorted.
From Verif Require Import Base BaseQ SGeneralCell SSubst SSym MGeneralCell MSogen SOcc.
Import ListNotations.
Open Scope nat_scope.

(** Sets of sites are written in increasing order. *)
Definition increasing (S : list nat) : Prop := StronglySorted lt S.

(** Lexicographic order of sets of the same size. *)
Inductive before : list nat -> list nat -> Prop :=
| before_head i j s t : i < j -> before (i :: s) (j :: t)
| before_tail i s t : before s t -> before (i :: s) (i :: t).

(** [S] is a set of [n] admissible sites. *)
Definition site_choice (P : nat -> Prop) (n : nat) (S : list nat) : Prop :=
  increasing S /\ length S = n /\ Forall P S.

(** No set of admissible sites that gives an equivalent structure comes before [S]. *)
Definition leader (G : list (list nat)) (init : list Z) (P : nat -> Prop) (n : nat) (sp : Z) (S : list nat) : Prop :=
  site_choice P n S /\
  forall T x y, site_choice P n T -> substituted init T sp x -> substituted init S sp y ->
    equivalent G x y -> ~ before T S.

(** The generator ends normally after listing, in lexicographic order, the structures that
    belong to the sets with property [Q]. *)
Definition in_order (o : occ) (sp : Z) (Q : list nat -> Prop) (t : trace gcell) : Prop :=
  exists Ss, StronglySorted before Ss /\ (forall S, In S Ss <-> Q S) /\ stop t = None /\
    Forall2 (fun S c => same_frame (init_cell o) c /\ substituted (numbers (init_cell o)) S sp (numbers c)) Ss (items t).

(** The same for pairs of disjoint sets, ordered by the first set, then by the second. *)
Definition before2 (a b : list nat * list nat) : Prop :=
  before (fst a) (fst b) \/ fst a = fst b /\ before (snd a) (snd b).
Definition pair_choice (P : nat -> Prop) (n1 n2 : nat) (a : list nat * list nat) : Prop :=
  site_choice P n1 (fst a) /\ site_choice P n2 (snd a) /\ forall i, In i (fst a) -> ~ In i (snd a).
Definition substituted2 (init : list Z) (a : list nat * list nat) (v1 v2 : Z) (x : list Z) : Prop :=
  length x = length init /\
  forall i z, nth_error init i = Some z ->
    (In i (fst a) -> nth_error x i = Some v1) /\ (In i (snd a) -> nth_error x i = Some v2) /\
    (~ In i (fst a) -> ~ In i (snd a) -> nth_error x i = Some z).
Definition leader2 (G : list (list nat)) (init : list Z) (P : nat -> Prop) (n1 n2 : nat) (v1 v2 : Z) (a : list nat * list nat) : Prop :=
  pair_choice P n1 n2 a /\
  forall b x y, pair_choice P n1 n2 b -> substituted2 init b v1 v2 x -> substituted2 init a v1 v2 y ->
    equivalent G x y -> ~ before2 b a.
Definition in_order2 (o : occ) (v1 v2 : Z) (Q : list nat * list nat -> Prop) (t : trace gcell) : Prop :=
  exists Ss, StronglySorted before2 Ss /\ (forall a, In a Ss <-> Q a) /\ stop t = None /\
    Forall2 (fun a c => same_frame (init_cell o) c /\ substituted2 (numbers (init_cell o)) a v1 v2 (numbers c)) Ss (items t).

(** Of a list, those members that are not related to an earlier one; [seen] came before. *)
Inductive firsts {A} (R : A -> A -> Prop) : list A -> list A -> list A -> Prop :=
| firsts_end seen : firsts R seen [] []
| firsts_new seen x l out : (forall y, In y seen -> ~ R y x) -> firsts R (x :: seen) l out -> firsts R seen (x :: l) (x :: out)
| firsts_old seen x l out y : In y seen -> R y x -> firsts R (x :: seen) l out -> firsts R seen (x :: l) out.
