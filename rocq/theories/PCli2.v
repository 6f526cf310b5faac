(** Properties C75, C76: the commands suplat, supcell, pcell, atclear and perturb. *)
From Coq Require Import String Ascii Permutation.
From Verif Require Import Base BaseQ SElement MElement LElement SLattice SSubst SSym MGeneralCell SGeneralCell MHnf PHnf PSuper
  MIO SIO MModCell SModCell PModCell SShape LShape SCli MCli LCli SCliOne LCli7 LCli8 LHnf LCrystal LShape2 PShape PCli.
Open Scope list_scope.
Open Scope nat_scope.
Notation length := List.length.

(** C75.  Any list of superlattices: the directory is emptied if it exists, then one file
    after the other is written until an exception. *)
Theorem C75_run : forall std dump a cwd suffix fs ds,
  let d := (cwd ++ "/SUPLAT_" ++ s_comment a)%string in
  let r := suplat_run std dump a cwd suffix fs ds in
  exists fs0 done rest ws, emptied (ds d) d fs fs0 /\ s_hnfs a = done ++ rest /\
    indexed (fun k => suplat_file (get_shaped_cell std) dump (s_outmode a) d (s_v a) (suffix k)) done ws /\
    after_writes fs0 ws (o_files r) /\ (o_exn r = None -> rest = []) /\ o_dirs r = mkdir ds d.
Proof. exact suplat_run_spec. Qed.
Print Assumptions C75_run.

Lemma all_shaped std u v : positions u <> [] -> length (positions u) = length (numbers u) -> volume (lattice u) <> 0%Qc ->
  distinct_sites (lattice u) (positions u) -> (v < 100000)%Z -> standardizes std ->
  forall h c, is_hnf v h -> supercell u h = Ok c ->
  standardized (labelled (lattice c) (positions c) (length (positions c))) (std (labelled (lattice c) (positions c) (length (positions c)))).
Proof.
  intros NE L VO D V ST h c Hh E. pose proof (hnf_det Hh) as DH. 
  assert (K : nonneg_mat h /\ upper h /\ (0 < v)%Z).
  { destruct Hh as (a & b & c0 & d & e & f & -> & ?). unfold nonneg_mat, upper. cbn [vx vy vz]. nia. }
  destruct K as (NN & U0 & PV). assert (U : upper h \/ lower h) by (left; exact U0).
  assert (B : (0 < zdet h < 100000)%Z) by lia.
  destruct (C37_no_repeated_atoms u h c NE L VO D NN U B E) as [DS VS].
  destruct (C37_supercell_same_crystal u h NE L NN U B) as (c' & E' & _ & N & _). assert (c' = c) by congruence. subst c'.
  apply ST; [rewrite map_length, seq_length; reflexivity| | |exact VS|exact DS].
  - intros Z. rewrite Z in N. destruct (positions u); [congruence|]. cbn [List.length] in N. nia.
  - apply FinFun.Injective_map_NoDup; [intros x y; apply Nat2Z.inj|apply seq_NoDup].
Qed.

(** From the unit cell to the files: one file per class of superlattices of the given
    volume, holding that superlattice with all its atoms; with different suffixes no file
    is lost. *)
Theorem C75_classes : forall std psize dump sl il rots u com v mode cwd suffix fs ds,
  set_order sl -> rot_group rots -> positions u <> [] -> length (positions u) = length (numbers u) -> Forall supported (numbers u) ->
  (0 < v < 2000)%Z -> mode = "vasp"%string \/ mode = "yaml"%string ->
  psize (spg_cell u) = length (snd (spg_cell u)) ->
  standardizes std -> volume (lattice u) <> 0%Qc -> distinct_sites (lattice u) (positions u) ->
  exists a, suplat_new psize (hnfs_from_n sl il rots) u com v mode = Ok a /\
    let d := (cwd ++ "/SUPLAT_" ++ s_comment a)%string in
    let r := suplat_run std dump a cwd suffix fs ds in
    o_exn r = None /\ o_dirs r = mkdir ds d /\
    exists hs fs0 ws, transversal (lat_equiv rots) (fun m => Z.abs (zdet m) = v) hs /\ emptied (ds d) d fs fs0 /\ after_writes fs0 ws (o_files r) /\
      indexed (fun k => superlattice_file dump mode d v u (suffix k)) hs ws /\
      ((forall i j, i < j < length hs -> suffix i <> suffix j) -> each_has_its_file fs0 ws (o_files r)).
Proof.
  intros std psize dump sl il rots u com v mode cwd suffix fs ds SL RG NE LU SU V M PS ST0 VU DU.
  destruct (proj1 (C34_one_per_class sl il rots u v SL RG) V) as (all & out & _ & E & _ & T).
  unfold suplat_new, is_primitive. rewrite PS, Nat.eqb_refl, E. cbn [bind]. eexists. split; [reflexivity|]. cbv zeta.
  set (a := mkSapp out _ v mode).
  assert (V' : (v < 100000)%Z) by lia. pose proof (@all_shaped std u v NE LU VU DU V' ST0) as ST. assert (V0 : (0 < v)%Z) by lia.
  destruct (@suplat_whole std dump rots u v NE LU SU V' ST a cwd suffix fs ds (@gen3_made sl il rots u v out SL V0 E) eq_refl M)
    as (X & D & fs0 & ws & K1 & K2 & K3 & K4).
  split; [exact X|]. split; [exact D|]. exists (map sl_H out), fs0, ws. rewrite map_length. auto.
Qed.
Print Assumptions C75_classes.

(** The same with the option for planar superlattices. *)
Theorem C75_classes_2d : forall std psize dump sl il rots u com v mode cwd suffix fs ds,
  set_order sl -> rot_group rots -> positions u <> [] -> length (positions u) = length (numbers u) -> Forall supported (numbers u) ->
  (0 < v < 2000)%Z -> mode = "vasp"%string \/ mode = "yaml"%string ->
  psize (spg_cell u) = length (snd (spg_cell u)) ->
  standardizes std -> volume (lattice u) <> 0%Qc -> distinct_sites (lattice u) (positions u) ->
  exists a, suplat_new psize (hnfs_from_n_2d sl il rots) u com v mode = Ok a /\
    let d := (cwd ++ "/SUPLAT_" ++ s_comment a)%string in
    let r := suplat_run std dump a cwd suffix fs ds in
    o_exn r = None /\ o_dirs r = mkdir ds d /\
    exists hs fs0 ws, transversal (lat_equiv rots) (fun m => in_plane m /\ Z.abs (zdet m) = v) hs /\ emptied (ds d) d fs fs0 /\ after_writes fs0 ws (o_files r) /\
      indexed (fun k => superlattice_file dump mode d v u (suffix k)) hs ws /\
      ((forall i j, i < j < length hs -> suffix i <> suffix j) -> each_has_its_file fs0 ws (o_files r)).
Proof.
  intros std psize dump sl il rots u com v mode cwd suffix fs ds SL RG NE LU SU V M PS ST0 VU DU.
  destruct (C35_plane_classes sl il rots u v SL RG V) as (all & out & _ & E & _ & T).
  unfold suplat_new, is_primitive. rewrite PS, Nat.eqb_refl, E. cbn [bind]. eexists. split; [reflexivity|]. cbv zeta.
  set (a := mkSapp out _ v mode).
  assert (V' : (v < 100000)%Z) by lia. pose proof (@all_shaped std u v NE LU VU DU V' ST0) as ST. assert (V0 : (0 < v)%Z) by lia.
  destruct (@suplat_whole std dump rots u v NE LU SU V' ST a cwd suffix fs ds (@gen2_made sl il rots u v out SL V0 E) eq_refl M)
    as (X & D & fs0 & ws & K1 & K2 & K3 & K4).
  split; [exact X|]. split; [exact D|]. exists (map sl_H out), fs0, ws. rewrite map_length. auto.
Qed.
Print Assumptions C75_classes_2d.

(** All files of a run have the same name apart from the suffix: no two structures share a
    file exactly if the suffixes differ. *)
Theorem C75_names : forall shape dump mode d v suffix cells ws,
  indexed (fun k => suplat_file shape dump mode d v (suffix k)) cells ws ->
  NoDup (map fst ws) <-> (forall i j, i < j < length cells -> suffix i <> suffix j).
Proof. intros shape dump mode d v suffix cells ws. exact (@suplat_distinct dump shape mode d v suffix cells ws). Qed.
Print Assumptions C75_names.

(** Cells that spglib can reduce are refused. *)
Theorem C75_not_primitive : forall psize gen u com v mode, psize (spg_cell u) <> length (snd (spg_cell u)) ->
  suplat_new psize gen u com v mode = Raise ValueError.
Proof. intros psize gen u com v mode N. unfold suplat_new, is_primitive. apply Nat.eqb_neq in N. rewrite N. reflexivity. Qed.
Print Assumptions C75_not_primitive.

(** *** Example: the boron in the unit cube, four-fold axis, doubled; spglib turns every
    supercell by 90 degrees *)
Lemma distinct_one lat p : distinct_sites lat [p].
Proof. intros i j q q' s A B _. destruct i as [|i]; [|destruct i; discriminate]. destruct j as [|j]; [reflexivity|destruct j; discriminate]. Qed.
Definition t_std : cell3 -> cell3 := moved q77 v0.
Definition t_suffix (k : nat) : string := String (ascii_of_nat (65 + k)) EmptyString.
Example C75_ex : set_order first_order /\ rot_group c4 /\ Forall supported (numbers unit1) /\ x_psize (spg_cell unit1) = length (snd (spg_cell unit1)) /\
  standardizes t_std /\ volume (lattice unit1) <> 0%Qc /\ distinct_sites (lattice unit1) (positions unit1) /\
  (forall i j, i < j < 5 -> t_suffix i <> t_suffix j).
Proof.
  split; [exact first_order_ok|]. split; [exact c4_group|]. split; [repeat constructor; lia|]. split; [reflexivity|].
  split; [apply C77_assumption_met, orth77|]. split; [discriminate|]. split; [apply distinct_one|].
  intros i j H. do 5 (destruct i as [|i]; [do 5 (destruct j as [|j]; [first [lia | discriminate]|]); lia|]). lia.
Qed.
Definition t_old (p : string) : option string :=
  if String.eqb p "/w/SUPLAT_x/old" then Some "o"%string else if String.eqb p "/w/keep" then Some "k"%string else None.
Example C75_ex_files : exists a, suplat_new x_psize (hnfs_from_n first_order true c4) unit1 (Some "x"%string) 2 "vasp" = Ok a /\
  let r := suplat_run t_std x_dump a "/w" t_suffix t_old (fun _ => true) in
  o_exn r = None /\ map (o_files r) ["/w/SUPLAT_x/old"; "/w/keep"]%string = [None; Some "k"%string] /\
  map (fun k => match o_files r ("/w/SUPLAT_x/SUPLAT_2_" ++ t_suffix k ++ ".vasp")%string with Some _ => true | None => false end) [0; 1; 2; 3; 4; 5] =
  [true; true; true; true; true; false] /\
  o_files r "/w/SUPLAT_x/SUPLAT_2_A.vasp" =
  match render x_dump Fvasp (mkG (V3 (V3 0 (-(1)) 0) (V3 1 0 0) (V3 0 0 (Zc 2)))%Qc [v0; V3 0 0 half]%Qc [5; 5]%Z (lattice unit1, [], []) 2) with Ok t => Some t | Raise _ => None end.
Proof. eexists. split; [vm_compute; reflexivity|]. vm_compute. repeat split. Qed.

(** The property is violated: five superlattices, one file. *)
Theorem C75_collision_refuted : exists std psize dump sl il rots u com v mode cwd (suffix : nat -> string) a,
  set_order sl /\ rot_group rots /\ standardizes std /\ (forall k, suffix_word 4 (suffix k)) /\
  suplat_new psize (hnfs_from_n sl il rots) u com v mode = Ok a /\ length (s_hnfs a) = 5 /\
  exists name, forall fs p, fs p = None -> p <> name ->
    o_files (suplat_run std dump a cwd suffix fs (fun _ => false)) p = None.
Proof.
  exists t_std, x_psize, x_dump, first_order, true, c4, unit1, (Some "x"%string), 2%Z, "vasp"%string, "/w"%string, (fun _ => "AAAA"%string).
  eexists. split; [exact first_order_ok|]. split; [exact c4_group|]. split; [apply C77_assumption_met, orth77|]. split.
  { intros _. split; [reflexivity|]. intros c I. cbn in I. vm_compute. intuition. }
  split; [vm_compute; reflexivity|]. split; [reflexivity|]. exists "/w/SUPLAT_x/SUPLAT_2_AAAA.vasp"%string. intros fs p N NP.
  match goal with |- o_files (suplat_run ?s ?d ?a ?c ?x ?f ?ds) p = None => destruct (C75_run s d a c x f ds) as (fs0 & done & rest & ws & E0 & _ & I & AW & _) end.
  destruct AW as [AW _]. rewrite AW; [destruct (E0 p) as [_ E1]; rewrite E1; [exact N|intros [[=] _]]|].
  rewrite (suplat_names I). intros IN. apply in_map_iff in IN as (k & <- & _). apply NP. reflexivity.
Qed.
Print Assumptions C75_collision_refuted.

(** C76.  supcell: the scaled cell, the same crystal, delivered as demanded. *)
Theorem C76_supcell : forall dump cell infile a b c m fs, positions cell <> [] -> length (positions cell) = length (numbers cell) ->
  Forall supported (numbers cell) -> (0 < a)%Z -> (0 < b)%Z -> (0 < c)%Z -> (a * b * c < 100000)%Z -> known_mode m ->
  exists g r, cmd_supcell dump cell infile (V3 a b c) m fs = Ok r /\ delivered dump (notice infile) infile "_SUPC" m g fs r /\
    lattice g = V3 (vscale (Zc a) (vx (lattice cell))) (vscale (Zc b) (vy (lattice cell))) (vscale (Zc c) (vz (lattice cell))) /\
    length (positions g) = length (numbers g) /\
    Z.of_nat (length (positions g)) = (a * b * c * Z.of_nat (length (positions cell)))%Z /\
    forall z v, crystal_atom (lattice g) (positions g) (numbers g) z v <-> crystal_atom (lattice cell) (positions cell) (numbers cell) z v.
Proof. exact supcell_spec. Qed.
Print Assumptions C76_supcell.

(** pcell: the primitive cell that spglib answers, delivered as demanded. *)
Theorem C76_pcell : forall std dump cell infile m fs r, known_mode m ->
  cmd_pcell std dump cell infile m fs = Ok r <-> exists g, get_refined_pcell std cell = Ok g /\ delivered dump (match m with None => ""%string | Some _ => notice infile end) infile "_PRIMC" m g fs r.
Proof. exact pcell_spec. Qed.
Print Assumptions C76_pcell.
Theorem C76_pcell_same_crystal : forall std dump cell infile m fs, known_mode m -> Forall supported (numbers cell) ->
  standardized (cell_of cell) (std (cell_of cell)) ->
  exists g r, cmd_pcell std dump cell infile m fs = Ok r /\ delivered dump (match m with None => ""%string | Some _ => notice infile end) infile "_PRIMC" m g fs r /\
    same_up_to_motion (cell_of cell) (cell_of g) /\ smallest (cell_of g).
Proof. exact pcell_total. Qed.
Print Assumptions C76_pcell_same_crystal.

(** atclear: exactly the atoms of the second species near an atom of the first are gone. *)
Theorem C76_atclear : forall std dump cell infile cenele r ele refined s1 s2 fuel fs,
  positions cell <> [] -> length (positions cell) = length (numbers cell) ->
  Forall supported (numbers cell) -> Specie_new cenele = Ok s1 -> Specie_new ele = Ok s2 -> length (positions cell) < fuel ->
  exists rest, cleared cell (sp_Z s1) r (sp_Z s2) rest /\
    let out := cmd_atclear std dump fuel cell infile cenele r ele refined fs in
    (rest = [] -> out = Some (Raise ValueError)) /\
    (rest <> [] -> exists g, lattice g = lattice cell /\ length (positions g) = length (numbers g) /\ Permutation (atoms g) rest /\
       exists o, out = Some o /\
       forall x, o = Ok x <-> exists g', written_cell (get_refined_pcell std) refined g g' /\ delivered dump (notice infile) infile "_ACLR" (Some "vasp"%string) g' fs x).
Proof. exact atclear_spec. Qed.
Print Assumptions C76_atclear.

(** perturb: every atom moved by its own random vector, scaled to the radius. *)
Theorem C76_perturb : forall dump cell infile r rnd us fs,
  positions cell <> [] -> length (positions cell) = length (numbers cell) ->
  Forall supported (numbers cell) -> volume (lattice cell) <> 0%Qc ->
  without (fun d : vec Qc * Qc => snd d = 0%Qc) rnd us -> length (positions cell) <= length us ->
  exists new g, shaken cell r us new /\ lattice g = lattice cell /\ length (positions g) = length (numbers g) /\ Permutation (atoms g) new /\
    exists x, cmd_perturb dump cell infile r rnd fs = Some (Ok x) /\ delivered dump (notice infile) infile "_PURB" (Some "vasp"%string) g fs x.
Proof. exact perturb_cmd_spec. Qed.
Print Assumptions C76_perturb.

(** The name of the result is determined by the input's name. *)
Theorem C76_name : forall infile tag mode n n', result_name infile tag mode n -> result_name infile tag mode n' -> n = n'.
Proof. intros infile tag mode n n' H H'. apply result_name_iff in H. apply result_name_iff in H'. congruence. Qed.
Print Assumptions C76_name.

(** *** Examples *)
(** two atoms, doubled in the first direction, to a file and to the terminal *)
Example C76_supcell_ex : exists g, supercell two_cell (V3 (V3 2 0 0) (V3 0 1 0) (V3 0 0 1))%Z = Ok g /\ numbers g = [5; 6; 5; 6]%Z /\
  exists t, render x_dump Fvasp g = Ok t /\
  match cmd_supcell x_dump two_cell "in/a.b.vasp" (V3 2 1 1)%Z (Some "vasp"%string) (fun _ => None) with
  | Ok (fs, out) => fs "a_SUPC.vasp"%string = Some t /\ out = notice "in/a.b.vasp" | Raise _ => False end /\
  match cmd_supcell x_dump two_cell "in/a.b.vasp" (V3 2 1 1)%Z None (fun _ => None) with
  | Ok (fs, out) => fs "a_SUPC.vasp"%string = None /\ out = (notice "in/a.b.vasp" ++ t ++ String "010" EmptyString)%string | Raise _ => False end.
Proof. eexists. split; [vm_compute; reflexivity|]. split; [reflexivity|]. eexists. split; [vm_compute; reflexivity|]. vm_compute. repeat split. Qed.
(** the doubled boron cell reduced to one atom *)
Example C76_pcell_ex : known_mode (Some "yaml"%string) /\ Forall supported (numbers c77) /\ standardized (cell_of c77) (prim77 (cell_of c77)) /\
  match cmd_pcell prim77 x_dump c77 "c77" (Some "yaml"%string) (fun _ => None) with
  | Ok (fs, _) => fs "c77_PRIMC.yaml"%string = Some "y"%string | Raise _ => False end.
Proof.
  split; [exists Fyaml; left; split; reflexivity|]. split; [repeat constructor; lia|]. split; [exact (proj1 C77_ex2)|]. vm_compute. reflexivity.
Qed.
(** a boron with one carbon near it and one far away *)
Definition l76 : mat Qc := lattice unit1.
Definition p76 : list (vec Qc) := [v0; V3 (Q2Qc (1 # 10)) 0 0; V3 half 0 0]%Qc.
Definition c76 : gcell := mkG l76 p76 [5; 6; 6]%Z (l76, p76, [5; 6; 6]%Z) 3.
Example C76_atclear_ex : (exists s1 s2, Specie_new "B" = Ok s1 /\ Specie_new "C" = Ok s2) /\ Forall supported (numbers c76) /\
  match cmd_atclear prim77 x_dump 4 c76 "x/c76.vasp" "B" (Q2Qc (3 # 10)) "C" false (fun _ => None) with
  | Some (Ok (fs, _)) => fs "c76_ACLR.vasp"%string =
      match render x_dump Fvasp (mkG l76 [v0; V3 half 0 0]%Qc [5; 6]%Z (l76, [], []) 2) with Ok t => Some t | Raise _ => None end
  | _ => False end.
Proof. split; [do 2 eexists; split; reflexivity|]. split; [repeat constructor; lia|]. vm_compute. reflexivity. Qed.
(** the same cell with every atom moved by 1/5; the second random vector is zero and skipped *)
Definition r76 : list (vec Qc * Qc) :=
  [(V3 (Zc 3) (Zc 4) 0, Zc 5); (v0, 0); (V3 0 0 (Zc 2), Zc 2); (V3 0 (Zc 2) 0, Zc 2)]%Qc.
Definition u76 : list (vec Qc * Qc) := [(V3 (Zc 3) (Zc 4) 0, Zc 5); (V3 0 0 (Zc 2), Zc 2); (V3 0 (Zc 2) 0, Zc 2)]%Qc.
Example C76_perturb_ex : volume (lattice c76) <> 0%Qc /\ without (fun d : vec Qc * Qc => snd d = 0%Qc) r76 u76 /\
  match cmd_perturb x_dump c76 "c76" (Q2Qc (1 # 5)) r76 (fun _ => None) with
  | Some (Ok (fs, _)) => fs "c76_PURB.vasp"%string =
      match render x_dump Fvasp (mkG l76 [V3 (Q2Qc (3 # 25)) (Q2Qc (4 # 25)) 0; V3 (Q2Qc (1 # 10)) 0 (Q2Qc (1 # 5)); V3 half (Q2Qc (1 # 5)) 0]%Qc [5; 6; 6]%Z (l76, [], []) 3) with Ok t => Some t | Raise _ => None end
  | _ => False end.
Proof. split; [discriminate|]. split; [repeat constructor; discriminate|]. vm_compute. reflexivity. Qed.

(** The property that results do not overwrite each other is violated: two input files of
    different directories and different names, the result of the second replaces the first. *)
Theorem C76_same_name_refuted : exists dump i1 i2 c1 c2 t1 t2 fs1 fs2, i1 <> i2 /\ t1 <> t2 /\
  cmd_supcell dump c1 i1 (V3 1 1 1)%Z (Some "vasp"%string) (fun _ => None) = Ok (fs1, notice i1) /\
  fs1 "a_SUPC.vasp"%string = Some t1 /\
  cmd_supcell dump c2 i2 (V3 1 1 1)%Z (Some "vasp"%string) fs1 = Ok (fs2, notice i2) /\
  fs2 "a_SUPC.vasp"%string = Some t2 /\ forall p, p <> "a_SUPC.vasp"%string -> fs2 p = None.
Proof.
  exists x_dump, "x/a.1.vasp"%string, "y/a.2.vasp"%string, unit1, two_cell.
  set (text c := match supercell c (V3 (V3 1 0 0) (V3 0 1 0) (V3 0 0 1))%Z with Ok g => match render x_dump Fvasp g with Ok t => t | Raise _ => ""%string end | Raise _ => ""%string end).
  exists (text unit1), (text two_cell), (put (fun _ => None) "a_SUPC.vasp" (text unit1)), (put (put (fun _ => None) "a_SUPC.vasp" (text unit1)) "a_SUPC.vasp" (text two_cell)).
  split; [discriminate|]. split; [vm_compute; discriminate|]. split; [vm_compute; reflexivity|]. split; [reflexivity|].
  split; [vm_compute; reflexivity|]. split; [reflexivity|]. intros p N. unfold put. apply String.eqb_neq in N. now rewrite N.
Qed.
Print Assumptions C76_same_name_refuted.
