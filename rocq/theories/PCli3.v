(** Property C78: what the single-file commands write or print, read back. *)
From Coq Require Import String Ascii Permutation.
From Verif Require Import Base BaseQ SElement MElement SLattice MGeneralCell SGeneralCell MHnf MIO SIO MModCell SModCell
  SShape SCli MCli SCliOne SCliRead LCli9 PSuper PSuper PShape PCli PCli2.
Open Scope list_scope.
Open Scope nat_scope.
Notation length := List.length.

(** The file written by supcell, read by the same package: the supercell up to the decimals
    of the file. *)
Theorem C78_supcell_file : forall dump load cbrt cell infile a b c m f fs, positions cell <> [] -> length (positions cell) = length (numbers cell) ->
  Forall supported (numbers cell) -> some_atom (numbers cell) -> (0 < a)%Z -> (0 < b)%Z -> (0 < c)%Z -> (a * b * c < 100000)%Z -> mode_format m f ->
  (forall d, load (dump d) = Ok d) ->
  exists g name fs' out g', cmd_supcell dump cell infile (V3 a b c) (Some m) fs = Ok (fs', out) /\
    lattice g = V3 (vscale (Zc a) (vx (lattice cell))) (vscale (Zc b) (vy (lattice cell))) (vscale (Zc c) (vz (lattice cell))) /\
    (forall z v, crystal_atom (lattice g) (positions g) (numbers g) z v <-> crystal_atom (lattice cell) (positions cell) (numbers cell) z v) /\
    result_name infile "_SUPC" m name /\ from_file load cbrt (Some name) None fs' = Ok g' /\ kept_by f g g'.
Proof. exact supcell_read. Qed.
Print Assumptions C78_supcell_file.

(** The text printed by pcell is a readable POSCAR of the primitive cell. *)
Theorem C78_pcell_printed : forall std dump cbrt cell infile fs,
  Forall supported (numbers cell) -> length (positions cell) = length (numbers cell) -> some_atom (numbers cell) ->
  standardized (cell_of cell) (std (cell_of cell)) ->
  exists g out g', cmd_pcell std dump cell infile None fs = Ok (fs, out) /\ same_up_to_motion (cell_of cell) (cell_of g) /\ smallest (cell_of g) /\
    vasp_get_cell cbrt out = Ok g' /\ kept_by Fvasp g g'.
Proof. exact pcell_printed. Qed.
Print Assumptions C78_pcell_printed.

(** The text printed by supcell never is: the announcement takes the first line, so that the
    formula is read as the scale. *)
Theorem C78_supcell_printed : forall dump cbrt cell infile a b c fs, positions cell <> [] -> length (positions cell) = length (numbers cell) ->
  Forall supported (numbers cell) -> (0 < a)%Z -> (0 < b)%Z -> (0 < c)%Z -> (a * b * c < 100000)%Z -> one_line infile ->
  exists out, cmd_supcell dump cell infile (V3 a b c) None fs = Ok (fs, out) /\
    (some_atom (numbers cell) -> vasp_get_cell cbrt out = Raise ValueError) /\
    (~ some_atom (numbers cell) -> vasp_get_cell cbrt out = Raise KeyError).
Proof. exact supcell_printed. Qed.
Print Assumptions C78_supcell_printed.

Theorem C78_refuted : exists cell infile s fs out, Forall supported (numbers cell) /\ some_atom (numbers cell) /\
  cmd_supcell x_dump cell infile s None fs = Ok (fs, out) /\ forall cbrt g', vasp_get_cell cbrt out <> Ok g'.
Proof.
  assert (O : one_line "a.vasp") by (apply allc_one_line; vm_compute; reflexivity).
  assert (S : Forall supported (numbers two_cell)) by (repeat constructor; unfold supported; lia).
  assert (A : some_atom (numbers two_cell)) by (exists 5%Z; split; [now left|discriminate]).
  exists two_cell, "a.vasp"%string, (V3 2 1 1)%Z, (fun _ => None).
  destruct (C78_supcell_printed x_dump (fun x => x) two_cell "a.vasp" 2 1 1 (fun _ => None)) as (out & E & _); [discriminate|reflexivity|exact S|reflexivity..|exact O|].
  exists out. split; [exact S|]. split; [exact A|]. split; [exact E|]. intros cbrt g' F.
  destruct (C78_supcell_printed x_dump cbrt two_cell "a.vasp" 2 1 1 (fun _ => None)) as (out' & E' & V & _); [discriminate|reflexivity|exact S|reflexivity..|exact O|].
  assert (out' = out) by (rewrite E' in E; injection E as E; exact E). subst out'. rewrite (V A) in F. discriminate F.
Qed.
Print Assumptions C78_refuted.

(** The doubled boron cell: the same text with and without the first line. *)
Example C78_ex : match render x_dump Fvasp two_cell with
  | Ok t => match vasp_get_cell (fun x => x) (t ++ String "010" EmptyString)%string, vasp_get_cell (fun x => x) (notice "a.vasp" ++ t ++ String "010" EmptyString)%string with
            | Ok g, Raise e => numbers g = numbers two_cell /\ List.map (vmap this) (positions g) = List.map (vmap this) (positions two_cell) /\ e = ValueError
            | _, _ => False end
  | Raise _ => False end.
Proof. vm_compute. repeat split. Qed.
Example C78_ex_pcell : Forall supported (numbers c77) /\ length (positions c77) = length (numbers c77) /\ some_atom (numbers c77) /\ standardized (cell_of c77) (prim77 (cell_of c77)) /\
  match cmd_pcell prim77 x_dump c77 "c77" None (fun _ => None) with
  | Ok (_, out) => match vasp_get_cell (fun x => x) out with Ok g => length (positions g) = 1 | Raise _ => False end
  | Raise _ => False end.
Proof.
  split; [repeat constructor; lia|]. split; [reflexivity|]. split; [eexists; split; [left; reflexivity|discriminate]|]. split; [exact (proj1 C77_ex2)|]. vm_compute. reflexivity.
Qed.
