(** Suffixes drawn for one group of structures after the other. *)
From Coq Require Import String List.
From Verif Require Import SFileCount2.
Import ListNotations.
Open Scope nat_scope.

(** The draws number [s], [s]+1, … are cut into consecutive blocks of the sizes [ks]; [js] are
    the numbers of different draws within each block. *)
Inductive drawn_in_blocks (suffix : nat -> string) : nat -> list nat -> list nat -> Prop :=
| blocks_none s : drawn_in_blocks suffix s [] []
| blocks_more s k j ks js : different_draws (fun i => suffix (s + i)) k j -> drawn_in_blocks suffix (s + k) ks js ->
    drawn_in_blocks suffix s (k :: ks) (j :: js).
