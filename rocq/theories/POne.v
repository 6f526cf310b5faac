(** Property C111: exactly what supcell, pcell, atclear and perturb leave behind. *)
From Coq Require Import String Ascii Permutation.
From Verif Require Import Base BaseQ SElement MElement SLattice SSubst SSym MGeneralCell SGeneralCell MHnf PHnf PSuper
  SModCell MModCell SOcc MIO SIO SShape LShape SCli MCli LCli SCliOne LCli7 LCli8 PShape PCli PCli2 SExact SListing SSuplat SOne LOne.
Open Scope list_scope.
Open Scope nat_scope.
Notation length := List.length.

Theorem C111_supcell : forall dump cell infile a b c m fs, positions cell <> [] -> length (positions cell) = length (numbers cell) ->
  Forall supported (numbers cell) -> (0 < a)%Z -> (0 < b)%Z -> (0 < c)%Z -> (a * b * c < 100000)%Z -> known_mode m ->
  exists g r, cmd_supcell dump cell infile (V3 a b c) m fs = Ok r /\
    exact_supercell cell (V3 (V3 a 0 0) (V3 0 b 0) (V3 0 0 c))%Z g /\ exact_delivery dump (notice infile) infile "_SUPC" m g fs r.
Proof. exact supcell_exact. Qed.
Print Assumptions C111_supcell.

Theorem C111_pcell : forall std dump cell infile m fs, known_mode m -> Forall supported (numbers cell) ->
  standardized (cell_of cell) (std (cell_of cell)) ->
  exists g r, cmd_pcell std dump cell infile m fs = Ok r /\ exact_primitive std cell g /\
    exact_delivery dump (match m with None => ""%string | Some _ => notice infile end) infile "_PRIMC" m g fs r.
Proof. exact pcell_exact. Qed.
Print Assumptions C111_pcell.

(** atclear: nothing left is an error; otherwise the remaining atoms, or their primitive cell. *)
Theorem C111_atclear : forall std dump cell infile cenele r ele s1 s2 fuel fs,
  positions cell <> [] -> length (positions cell) = length (numbers cell) ->
  Forall supported (numbers cell) -> Specie_new cenele = Ok s1 -> Specie_new ele = Ok s2 -> length (positions cell) < fuel ->
  exists rest, cleared cell (sp_Z s1) r (sp_Z s2) rest /\
    (rest = [] -> forall refined, cmd_atclear std dump fuel cell infile cenele r ele refined fs = Some (Raise ValueError)) /\
    (rest <> [] -> exists g, cell_with (lattice cell) rest g /\
       (exists x, cmd_atclear std dump fuel cell infile cenele r ele false fs = Some (Ok x) /\
          exact_delivery dump (notice infile) infile "_ACLR" (Some "vasp"%string) g fs x) /\
       (standardized (cell_of g) (std (cell_of g)) -> exists g' x, exact_primitive std g g' /\
          cmd_atclear std dump fuel cell infile cenele r ele true fs = Some (Ok x) /\
          exact_delivery dump (notice infile) infile "_ACLR" (Some "vasp"%string) g' fs x)).
Proof. exact atclear_exact. Qed.
Print Assumptions C111_atclear.

Theorem C111_perturb : forall dump cell infile r rnd us fs,
  positions cell <> [] -> length (positions cell) = length (numbers cell) ->
  Forall supported (numbers cell) -> SModCell.volume (lattice cell) <> 0%Qc ->
  without (fun d : vec Qc * Qc => snd d = 0%Qc) rnd us -> length (positions cell) <= length us ->
  exists new g x, shaken cell r us new /\ cell_with (lattice cell) new g /\
    cmd_perturb dump cell infile r rnd fs = Some (Ok x) /\ exact_delivery dump (notice infile) infile "_PURB" (Some "vasp"%string) g fs x.
Proof. exact perturb_exact. Qed.
Print Assumptions C111_perturb.

(** The cell with given atoms is unique if its sites stay apart after rounding to three
    decimals; the delivery of a given cell always is. *)
Theorem C111_cell_unique : forall lat ats g g', SSym.distinct_sites (positions g) -> cell_with lat ats g -> cell_with lat ats g' -> g = g'.
Proof. exact cell_with_fun. Qed.
Print Assumptions C111_cell_unique.
Theorem C111_determined : forall dump said infile tag m c fs r r',
  exact_delivery dump said infile tag m c fs r -> exact_delivery dump said infile tag m c fs r' ->
  snd r = snd r' /\ forall p, fst r p = fst r' p.
Proof. exact delivery_fun. Qed.
Print Assumptions C111_determined.

(** The cells of C76: a doubled cell, the primitive cell of a doubled cell, a carbon removed,
    three atoms moved. *)
Example C111_supcell_ex : positions two_cell <> [] /\ length (positions two_cell) = length (numbers two_cell) /\ Forall supported (numbers two_cell) /\
  known_mode (Some "yaml"%string) /\ exists g, supercell two_cell (V3 (V3 2 0 0) (V3 0 1 0) (V3 0 0 1))%Z = Ok g /\ numbers g = [5; 6; 5; 6]%Z.
Proof.
  split; [discriminate|]. split; [reflexivity|]. split; [repeat constructor; lia|]. split; [exists Fyaml; left; split; reflexivity|].
  eexists. split; [vm_compute; reflexivity|]. reflexivity.
Qed.
Example C111_pcell_ex : Forall supported (numbers c77) /\ standardized (cell_of c77) (prim77 (cell_of c77)).
Proof. destruct C76_pcell_ex as (_ & A & B & _). auto. Qed.
Example C111_atclear_ex : exists s1 s2, Specie_new "B" = Ok s1 /\ Specie_new "C" = Ok s2 /\ Forall supported (numbers c76) /\
  match cmd_atclear prim77 x_dump 4 c76 "x/c76.vasp" "B" (Q2Qc (3 # 10)) "C" false (fun _ => None) with
  | Some (Ok (fs, said)) => said = notice "x/c76.vasp" /\ fs "c76_ACLR.vasp"%string <> None /\ fs "c76.vasp"%string = None
  | _ => False end.
Proof. do 2 eexists. split; [reflexivity|]. split; [reflexivity|]. split; [repeat constructor; lia|]. vm_compute. repeat split. discriminate. Qed.
Example C111_perturb_ex : SModCell.volume (lattice c76) <> 0%Qc /\ without (fun d : vec Qc * Qc => snd d = 0%Qc) r76 u76 /\ length (positions c76) <= length u76.
Proof. split; [discriminate|]. split; [repeat constructor; discriminate|]. cbn. lia. Qed.
