(** Model of [itertools.combinations] (standard library) and of the substitution loop
    used by every generator. *)
From Verif Require Import Base.
Set Implicit Arguments.

(** k-element sublists of [l] in the order itertools produces them. *)
Fixpoint combos {A} (l : list A) (k : nat) {struct l} : list (list A) :=
  match k, l with
  | O, _ => [[]]
  | S _, [] => []
  | S k', x :: t => List.map (cons x) (combos t k') ++ combos t k
  end.

(** [combinations(l, n)]: a negative n raises ValueError. *)
Definition combinations {A} (l : list A) (n : Z) : res (list (list A)) :=
  if (n <? 0)%Z then Raise ValueError else Ok (combos l (Z.to_nat n)).

(** sogen.py:58-60, 84-86, 102-104: [numbers = init.copy(); for index in comb_index:
    numbers[index] = v] *)
Definition put (init : list Z) (comb_index : list nat) (v : Z) : res (list Z) :=
  foldM (fun numbers index => set_nth numbers index v) init comb_index.
