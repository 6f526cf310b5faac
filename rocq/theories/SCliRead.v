(** Specification vocabulary for reading back what a command wrote or printed. *)
From Coq Require Import String Permutation.
From Verif Require Import Base BaseQ SElement MGeneralCell SGeneralCell MIO SIO.
Open Scope list_scope.

(** Half a unit in the last decimal written plus half a unit in the last decimal read. *)
Definition read_tol : Qc := Q2Qc (505 # 10000000).
(** [g'] is what remains of [g] after a file of format [f]: the lattice and the positions up
    to [read_tol], each atom with its own species; a POSCAR lists the atoms species by
    species and leaves the vacancies out. *)
Definition kept_by (f : format) (g g' : gcell) : Prop :=
  mwithin read_tol (lattice g) (lattice g') /\
  exists atoms pos,
    match f with
    | Fyaml => atoms = combine (positions g) (numbers g)
    | Fvasp => grouped (combine (positions g) (numbers g)) atoms
    end /\
    Forall2 (vwithin read_tol) (List.map fst atoms) pos /\
    Permutation (combine (positions g') (numbers g')) (combine pos (List.map snd atoms)).
(** There is something else than vacancies. *)
Definition some_atom (nums : list Z) : Prop := exists z, In z nums /\ z <> 0%Z.

From Verif Require Import SSym SLattice SShape SCli MGeneralCell.
(** The file [p] read by its name gives [c], up to the decimals and the order of the format
    that the name stands for. *)
Definition reads_as (load : string -> res ydoc) (cbrt : Qc -> Qc) (fs : files) (p : string) (c : gcell) : Prop :=
  exists f g', (contains_any_case ".yaml" p -> f = Fyaml) /\ (~ contains_any_case ".yaml" p -> f = Fvasp) /\
    from_file load cbrt (Some p) None fs = Ok g' /\ kept_by f c g'.
(** Besides the files there were, there is one readable file for each class of [D] under [E],
    and nothing else has changed; [written y c]: the cell [c] stands for [y]. *)
Definition one_readable_file_each {X} load cbrt (E : X -> X -> Prop) (D : X -> Prop) (written : X -> gcell -> Prop) (fs fs' : files) : Prop :=
  exists ps ys, NoDup ps /\ (forall p, ~ In p ps -> fs' p = fs p) /\ transversal E D ys /\
    Forall2 (fun p y => exists c, written y c /\ reads_as load cbrt fs' p c) ps ys.

(** The suffixes drawn for the files, as many as there are classes, differ. *)
Definition enough_suffixes {X} (E : X -> X -> Prop) (D : X -> Prop) (suffix : nat -> string) : Prop :=
  forall ys, transversal E D ys -> forall i j, i < j < List.length ys -> suffix i <> suffix j.

(** The same for the ternary commands, whose files get unused names as long as there is room
    for [N] files.  A POSCAR can be read by its name unless some directory is called .yaml. *)
Definition readable_by_composition load cbrt (N : nat) (mode : string) (E : list Z -> list Z -> Prop) (D : nat * nat -> list Z -> Prop)
    (written : list Z -> gcell -> Prop) (comps : list (nat * nat)) (fs fs' : files) : Prop :=
  exists (out : nat * nat -> list (list Z)) ps, (forall n, In n comps -> transversal E (D n) (out n)) /\
    forall n, files_at_most fs n -> (n + List.length ps <= N)%nat ->
      NoDup ps /\ (forall p, In p ps -> fs p = None) /\ (forall p, ~ In p ps -> fs' p = fs p) /\
      Forall2 (fun p y => (mode = "vasp"%string -> ~ contains_any_case ".yaml" p) -> exists c, written y c /\ reads_as load cbrt fs' p c)
        ps (List.flat_map out comps).

(** The cell [g] stands for the superlattice [h] of [u]: the crystal of [u] with that lattice,
    moved rigidly at most. *)
Definition stands_for (u : gcell) (h : mat Z) (g : gcell) : Prop :=
  exists c, lattice c = mat_mul (matZ h) (lattice u) /\
    (forall z x, crystal_atom (lattice c) (positions c) (numbers c) z x <-> crystal_atom (lattice u) (positions u) (numbers u) z x) /\
    same_cell_up_to_motion (cell_of c) (cell_of g).
