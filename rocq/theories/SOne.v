(** Exactly what the commands that turn one file into one file leave behind. *)
From Coq Require Import List ZArith Permutation String Ascii.
From Verif Require Import Base BaseQ SElement SLattice SGeneralCell SIO SExact MGeneralCell MIO SOcc SCli SCliOne SListing.
Import ListNotations.
Open Scope list_scope.

(** The text of a cell, character by character: a YAML document or a POSCAR. *)
Definition text_of_cell (dump : ydoc -> string) (mode : string) (c : gcell) (t : string) : Prop :=
  (mode = "yaml"%string /\ exists com d, formula (numbers c) com /\ six_doc c com d /\ t = dump d) \/
  (mode = "vasp"%string /\ poscar_exact (lattice c) (positions c) (numbers c) 1 "direct" t).
(** With a mode one file is written and [said] is printed; without a mode the POSCAR follows
    on the terminal and no file changes. *)
Definition exact_delivery (dump : ydoc -> string) (said infile tag : string) (outmode : option string) (c : gcell)
    (fs : string -> option string) (r : (string -> option string) * string) : Prop :=
  match outmode with
  | Some m => exists name t, result_name infile tag m name /\ text_of_cell dump m c t /\
      fst r name = Some t /\ (forall p, p <> name -> fst r p = fs p) /\ snd r = said
  | None => exists t, text_of_cell dump "vasp" c t /\ (forall p, fst r p = fs p) /\
      snd r = (said ++ t ++ String "010" EmptyString)%string
  end.
(** The cell with these atoms, in the order of the constructor. *)
Definition cell_with (lat : mat Qc) (ats : list (vec Qc * Z)) (g : gcell) : Prop :=
  from_constructor g /\ lattice g = lat /\ Permutation (combine (positions g) (numbers g)) ats.
(** The primitive cell that spglib answers. *)
Definition exact_primitive (std : mat Qc * list (vec Qc) * list Z -> mat Qc * list (vec Qc) * list Z) (c g : gcell) : Prop :=
  exists lat pos nums, std (lattice c, positions c, numbers c) = (lat, pos, nums) /\ cell_with lat (combine pos nums) g.
