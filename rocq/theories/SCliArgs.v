(** What the arguments of the enumerating commands are documented to mean. *)
From Coq Require Import String.
From Verif Require Import Base BaseQ SElement SGeneralCell.

(** The element whose atoms are replaced: the named one, or that of the second atom. *)
Definition element_chosen (nums : list Z) (arg : option string) (z : Z) : Prop :=
  match arg with Some e => is_element z e | None => nth_error nums 1 = Some z /\ supported z end.
(** The species put in: the named one, or the vacancy. *)
Definition species_chosen (arg : option string) (z : Z) : Prop := is_element z (match arg with Some s => s | None => "G"%string end).
(** The comment: the given one unless empty, or the formula. *)
Definition comment_chosen (nums : list Z) (arg : option string) (s : string) : Prop :=
  match arg with Some c => if String.eqb c "" then formula nums s else s = c | None => formula nums s end.
