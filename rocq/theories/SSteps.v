(** Vocabulary for enumerations carried out one species after the other. *)
From Coq Require Import String.
From Verif Require Import Base BaseQ MGeneralCell SGeneralCell SSym SSubst MSogen SOcc SRobust.
Open Scope list_scope.
Open Scope nat_scope.
Notation length := List.length.

(** [x] is [init] with some of the atoms [ele] replaced, so that for every pair (n, v) of [steps] there are
    n atoms v; nothing else is changed. *)
Definition composed (init : list Z) (ele : Z) (steps : list (nat * Z)) (x : list Z) : Prop :=
  length x = length init /\
  (forall i a, nth_error init i = Some a -> nth_error x i = Some a \/ a = ele /\ exists s, In s steps /\ nth_error x i = Some (snd s)) /\
  (forall s, In s steps -> count_occ Z.eq_dec x (snd s) = fst s).

(** [spg] reports for every cell with the lattice and the sites of [c] exactly those of the operations
    [all] of the bare sites that carry atoms to atoms of the same species. *)
Definition reports_symmetry (spg : gcell -> list (mat Z * vec Qc)) (all : list (mat Z * vec Qc)) (c : gcell) : Prop :=
  exact_space_group all (positions c) /\
  forall g, same_frame c g -> forall o, In o (spg g) <-> In o all /\ species_kept [o] (positions c) (numbers g).

(** The species are new and different. *)
Definition new_species (nums : list Z) (ele : Z) (steps : list (nat * Z)) : Prop :=
  NoDup (ele :: map snd steps) /\ forall s, In s steps -> ~ In (snd s) nums.

(** One species after the other: a new generator is made for every structure found so far (the enumeration
    by element, sogen.py:107-109, is run on it), all results are collected. *)
Fixpoint one_by_one (h : list Z -> Z) (spg : gcell -> list (mat Z * vec Qc)) (wy : gcell -> list string) (ele : Z) (steps : list (nat * Z)) (c : gcell) : trace gcell :=
  match steps with
  | [] => mkTrace [c] None
  | (n, v) :: rest =>
      match OccupyGenerator_new (spg c) (wy c) c with
      | Raise e => mkTrace [] (Some e)
      | Ok o =>
          let t := gen_nodup_of_ele h o ele (Z.of_nat n) v in
          let r := gen_flat (one_by_one h spg wy ele rest) (items t) in
          mkTrace (items r) (match stop r with None => stop t | s => s end)
      end
  end.
