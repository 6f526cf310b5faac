(** Property C78, continued: the files of pcell, atclear and perturb. *)
From Coq Require Import String Ascii Permutation.
From Verif Require Import Base BaseQ SElement MElement SLattice MGeneralCell SGeneralCell MHnf MIO SIO MModCell SModCell
  SShape SCli MCli SCliOne SCliRead LCli11 PSuper PShape PCli PCli2.
Open Scope list_scope.
Open Scope nat_scope.
Notation length := List.length.

(** The file written by pcell: the primitive cell up to the decimals of the file. *)
Theorem C78_pcell_file : forall std dump load cbrt cell infile m f fs,
  Forall supported (numbers cell) -> length (positions cell) = length (numbers cell) -> some_atom (numbers cell) ->
  standardized (cell_of cell) (std (cell_of cell)) -> mode_format m f -> (forall d, load (dump d) = Ok d) ->
  exists g name fs' out g', cmd_pcell std dump cell infile (Some m) fs = Ok (fs', out) /\ same_up_to_motion (cell_of cell) (cell_of g) /\ smallest (cell_of g) /\
    result_name infile "_PRIMC" m name /\ from_file load cbrt (Some name) None fs' = Ok g' /\ kept_by f g g'.
Proof. exact pcell_read. Qed.
Print Assumptions C78_pcell_file.

(** The file written by perturb: every atom moved by the same distance. *)
Theorem C78_perturb_file : forall dump load cbrt cell infile r rnd us fs, positions cell <> [] -> length (positions cell) = length (numbers cell) ->
  Forall supported (numbers cell) -> some_atom (numbers cell) -> volume (lattice cell) <> 0%Qc ->
  without (fun d : vec Qc * Qc => snd d = 0%Qc) rnd us -> length (positions cell) <= length us ->
  exists new g name fs' out g', cmd_perturb dump cell infile r rnd fs = Some (Ok (fs', out)) /\
    shaken cell r us new /\ lattice g = lattice cell /\ Permutation (atoms g) new /\
    result_name infile "_PURB" "vasp" name /\ from_file load cbrt (Some name) None fs' = Ok g' /\ kept_by Fvasp g g'.
Proof. exact perturb_read. Qed.
Print Assumptions C78_perturb_file.

(** The file written by atclear, if something else than vacancies is left: the remaining
    atoms, or their primitive cell. *)
Theorem C78_atclear_file : forall std dump load cbrt cell infile cenele r ele refined s1 s2 fuel fs,
  positions cell <> [] -> length (positions cell) = length (numbers cell) ->
  Forall supported (numbers cell) -> Specie_new cenele = Ok s1 -> Specie_new ele = Ok s2 -> length (positions cell) < fuel ->
  exists rest, cleared cell (sp_Z s1) r (sp_Z s2) rest /\
    (some_atom (List.map snd rest) ->
     (refined = true -> forall g, lattice g = lattice cell -> Permutation (atoms g) rest -> standardized (cell_of g) (std (cell_of g))) ->
     exists g g0 name fs' out g', cmd_atclear std dump fuel cell infile cenele r ele refined fs = Some (Ok (fs', out)) /\
       lattice g = lattice cell /\ Permutation (atoms g) rest /\
       (refined = true -> same_up_to_motion (cell_of g) (cell_of g0) /\ smallest (cell_of g0)) /\ (refined = false -> g0 = g) /\
       result_name infile "_ACLR" "vasp" name /\ from_file load cbrt (Some name) None fs' = Ok g' /\ kept_by Fvasp g0 g').
Proof. exact atclear_read. Qed.
Print Assumptions C78_atclear_file.

(** The cells of the examples of C76, read back from their files. *)
Example C78_perturb_ex : volume (lattice c76) <> 0%Qc /\ without (fun d : vec Qc * Qc => snd d = 0%Qc) r76 u76 /\ some_atom (numbers c76) /\
  match cmd_perturb x_dump c76 "c76" (Q2Qc (1 # 5)) r76 (fun _ => None) with
  | Some (Ok (fs, _)) =>
      match from_file (fun _ => Raise ValueError) (fun x => x) (Some "c76_PURB.vasp"%string) None fs with
      | Ok g => numbers g = [6; 5; 6]%Z /\ List.map (vmap this) (positions g) =
          List.map (vmap this) [V3 (Q2Qc (1 # 10)) 0 (Q2Qc (1 # 5)); V3 (Q2Qc (3 # 25)) (Q2Qc (4 # 25)) 0; V3 half (Q2Qc (1 # 5)) 0]%Qc
      | Raise _ => False end
  | _ => False end.
Proof.
  split; [discriminate|]. split; [repeat constructor; discriminate|]. split; [exists 5%Z; split; [now left|discriminate]|].
  vm_compute. split; reflexivity.
Qed.
Example C78_atclear_ex : (exists s1 s2, Specie_new "B" = Ok s1 /\ Specie_new "C" = Ok s2) /\ Forall supported (numbers c76) /\
  match cmd_atclear prim77 x_dump 4 c76 "x/c76.vasp" "B" (Q2Qc (3 # 10)) "C" false (fun _ => None) with
  | Some (Ok (fs, _)) =>
      match from_file (fun _ => Raise ValueError) (fun x => x) (Some "c76_ACLR.vasp"%string) None fs with
      | Ok g => numbers g = [5; 6]%Z /\ List.map (vmap this) (positions g) = List.map (vmap this) [v0; V3 half 0 0]%Qc
      | Raise _ => False end
  | _ => False end.
Proof. split; [do 2 eexists; split; reflexivity|]. split; [repeat constructor; lia|]. vm_compute. split; reflexivity. Qed.
Example C78_pcell_ex : standardized (cell_of c77) (prim77 (cell_of c77)) /\
  match cmd_pcell prim77 x_dump c77 "c77" (Some "vasp"%string) (fun _ => None) with
  | Ok (fs, _) => match from_file (fun _ => Raise ValueError) (fun x => x) (Some "c77_PRIMC.vasp"%string) None fs with
                  | Ok g => length (numbers g) = 1 | Raise _ => False end
  | Raise _ => False end.
Proof. split; [exact (proj1 C77_ex2)|]. vm_compute. reflexivity. Qed.
