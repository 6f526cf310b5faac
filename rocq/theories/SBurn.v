(** Burnside's count: the number of classes of a permutation action, stated without any
    reference to how representatives are chosen. *)
From Coq Require Import List ZArith.
From Verif Require Import SGeneralCell SSym.
Import ListNotations.

(** [l] lists the members of [D], each once. *)
Definition lists_once {A} (D : A -> Prop) (l : list A) : Prop := NoDup l /\ forall x, In x l <-> D x.

(** (permutation, structure left unchanged by it) *)
Definition fixed_pair (G : list (list nat)) (D : list Z -> Prop) (f : list nat * list Z) : Prop :=
  In (fst f) G /\ D (snd f) /\ reordered (snd f) (fst f) (snd f).

(** The order of the group times [k] is the number of pairs (permutation, fixed structure). *)
Definition burnside_count (G : list (list nat)) (D : list Z -> Prop) (k : nat) : Prop :=
  exists Gs Fs, lists_once (fun p => In p G) Gs /\ lists_once (fixed_pair G D) Fs /\
    (length Gs * k = length Fs)%nat.
