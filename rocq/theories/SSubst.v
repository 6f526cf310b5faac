(** Specification of site substitution and of "every k-element subset exactly once".
    Independent of the models. *)
From Coq Require Import List ZArith Arith.
Import ListNotations.

(** [a] is a subsequence of [l]. *)
Inductive subseq {A} : list A -> list A -> Prop :=
| sub_nil l : subseq [] l
| sub_take x a l : subseq a l -> subseq (x :: a) (x :: l)
| sub_skip x a l : subseq a l -> subseq a (x :: l).

(** [x] is [init] with the value [v] on the index set [S]. *)
Definition substituted (init : list Z) (S : list nat) (v : Z) (x : list Z) : Prop :=
  length x = length init /\
  forall i a, nth_error init i = Some a ->
    (In i S -> nth_error x i = Some v) /\ (~ In i S -> nth_error x i = Some a).

(** [S] is a k-element set of admissible indices. *)
Definition subset_of_size (P : nat -> Prop) (k : nat) (S : list nat) : Prop :=
  NoDup S /\ length S = k /\ (forall i, In i S -> P i).

Definition same_set (a b : list nat) : Prop := forall i, In i a <-> In i b.

(** [Ss] lists every k-element set of admissible indices exactly once. *)
Definition all_subsets_once (P : nat -> Prop) (k : nat) (Ss : list (list nat)) : Prop :=
  Forall (subset_of_size P k) Ss /\
  (forall S, subset_of_size P k S -> exists S', In S' Ss /\ same_set S S') /\
  ForallOrdPairs (fun a b => ~ same_set a b) Ss.

(** Binomial coefficient (Pascal's rule). *)
Fixpoint binom (n k : nat) : nat :=
  match n, k with
  | _, O => 1
  | O, S _ => 0
  | S n', S k' => binom n' k' + binom n' k
  end.

(** Site conditions. *)
Definition any_site (init : list Z) (i : nat) : Prop := i < length init.
Definition site_holds (init : list Z) (e : Z) (i : nat) : Prop := nth_error init i = Some e.
Definition site_not (init : list Z) (v : Z) (i : nat) : Prop :=
  exists a, nth_error init i = Some a /\ a <> v.
Definition site_letter {L} (letters : list L) (w : L) (i : nat) : Prop := nth_error letters i = Some w.

(** [x] arises from [init] by putting [v] on exactly [k] admissible sites. *)
Definition k_fold (init : list Z) (P : nat -> Prop) (k : nat) (v : Z) (x : list Z) : Prop :=
  exists S, subset_of_size P k S /\ substituted init S v x.

(** [x] arises from [init] by putting [v1] on [n1] sites and [v2] on [n2] other sites. *)
Definition two_fold (init : list Z) (n1 : nat) (v1 : Z) (n2 : nat) (v2 : Z) (x : list Z) : Prop :=
  exists S1 S2,
    subset_of_size (any_site init) n1 S1 /\ subset_of_size (any_site init) n2 S2 /\
    (forall i, In i S1 -> ~ In i S2) /\
    length x = length init /\
    forall i a, nth_error init i = Some a ->
      (In i S1 -> nth_error x i = Some v1) /\
      (In i S2 -> nth_error x i = Some v2) /\
      (~ In i S1 -> ~ In i S2 -> nth_error x i = Some a).
