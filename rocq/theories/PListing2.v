(** Property C109: the files that ocutenter and ocumakert leave behind. *)
From Coq Require Import String Ascii Sorted.
From Verif Require Import Base BaseQ SElement MElement LElement MGeneralCell SGeneralCell MRestrict MSogen LSymDec MText MIO SIO LIO6
  SSubst SSym SOcc SEnum LMisc LSogen SCli MCli SCliApp LCli LCli2 LCli3 LCli4 LCli5 LCli6 SOrder LOrder SExact SListing LListing LListing2 PCli.
Open Scope list_scope.
Open Scope nat_scope.
Notation length := List.length.

(** ocutenter: the wanted ones among the first pairs of sets of their classes, in
    lexicographic order, each with its exact text under the name drawn for it. *)
Theorem C109_ocutenter : forall N ops wy psize std h dump a n1 n2 cwd rd tmp fs ds o tr s1 s2,
  ds (cwd ++ "/STRUCTURES_" ++ t_comment a ++ "_" ++ rd)%string = false ->
  OccupyGenerator_new (ops (t_cell a)) (wy (t_cell a)) (t_cell a) = Ok o -> restriction_of (t_tr a) = Ok tr -> fresh_names N tmp ->
  Specie_new (t_s1 a) = Ok s1 -> Specie_new (t_s2 a) = Ok s2 ->
  from_constructor (t_cell a) -> perm_group (length (numbers (t_cell a))) (sym_perm o) -> preserves (sym_perm o) (numbers (t_cell a)) ->
  collision_free h (two_fold (numbers (t_cell a)) n1 (sp_Z s1) n2 (sp_Z s2)) ->
  ternary_inputs psize std a tr o (sp_Z s1) (sp_Z s2) [(n1, n2)] ->
  let r := tenter_run ops wy psize std h dump a (Z.of_nat n1) (Z.of_nat n2) cwd rd tmp fs ds in
  o_exn r = None /\ exists out,
    compositions (t_cell a) (sp_Z s1) (sp_Z s2) (fun n1 n2 S =>
      leader2 (sym_perm o) (numbers (t_cell a)) (any_site (numbers (t_cell a))) n1 n2 (sp_Z s1) (sp_Z s2) S /\
      wanted_pair psize (t_mpr a) tr (t_cell a) (sp_Z s1) (sp_Z s2) S) [(n1, n2)] out /\
    filed std dump a (cwd ++ "/STRUCTURES_" ++ t_comment a ++ "_" ++ rd) tmp out fs (o_files r).
Proof.
  intros N ops wy psize std h dump a n1 n2 cwd rd tmp fs ds o tr s1 s2 DS MO RT FR E1 E2 FC PG PR CF TI.
  assert (CF' : forall m1 m2, In (m1, m2) [(n1, n2)] -> collision_free h (two_fold (numbers (t_cell a)) m1 (sp_Z s1) m2 (sp_Z s2)))
    by (intros m1 m2 [[= <- <-]|[]]; exact CF).
  exact (@ternary_filed ops wy psize std h dump N true a [(n1, n2)] cwd rd tmp fs ds o tr s1 s2 DS MO RT FR E1 E2 FC PG PR CF' TI).
Qed.
Print Assumptions C109_ocutenter.

(** ocumakert: the same for all compositions with at least one atom of each kind, ordered by
    the number of atoms of the first species, then of the second. *)
Theorem C109_ocumakert : forall N ops wy psize std h dump a cwd rd tmp fs ds o tr s1 s2 comps,
  StronglySorted fewer comps -> (forall n1 n2, In (n1, n2) comps <-> 1 <= n1 /\ 1 <= n2 /\ n1 + n2 < t_size a) ->
  ds (cwd ++ "/STRUCTURES_" ++ t_comment a ++ "_" ++ rd)%string = false ->
  OccupyGenerator_new (ops (t_cell a)) (wy (t_cell a)) (t_cell a) = Ok o -> restriction_of (t_tr a) = Ok tr -> fresh_names N tmp ->
  Specie_new (t_s1 a) = Ok s1 -> Specie_new (t_s2 a) = Ok s2 ->
  from_constructor (t_cell a) -> perm_group (length (numbers (t_cell a))) (sym_perm o) -> preserves (sym_perm o) (numbers (t_cell a)) ->
  (forall n1 n2, In (n1, n2) comps -> collision_free h (two_fold (numbers (t_cell a)) n1 (sp_Z s1) n2 (sp_Z s2))) ->
  ternary_inputs psize std a tr o (sp_Z s1) (sp_Z s2) comps ->
  let r := makert_run ops wy psize std h dump a cwd rd tmp fs ds in
  o_exn r = None /\ exists out,
    compositions (t_cell a) (sp_Z s1) (sp_Z s2) (fun n1 n2 S =>
      leader2 (sym_perm o) (numbers (t_cell a)) (any_site (numbers (t_cell a))) n1 n2 (sp_Z s1) (sp_Z s2) S /\
      wanted_pair psize (t_mpr a) tr (t_cell a) (sp_Z s1) (sp_Z s2) S) comps out /\
    filed std dump a (cwd ++ "/STRUCTURES_" ++ t_comment a ++ "_" ++ rd) tmp out fs (o_files r).
Proof.
  intros N ops wy psize std h dump a cwd rd tmp fs ds o tr s1 s2 comps SC IC DS MO RT FR E1 E2 FC PG PR CF TI.
  assert (comps = ncomps (t_size a)).
  { apply (ordered_unique fewer_irr fewer_trans SC (ncomps_sorted _)). intros [m1 m2]. rewrite IC, ncomps_In. reflexivity. }
  subst comps. unfold makert_run. rewrite <- ncomps_z.
  exact (@ternary_filed ops wy psize std h dump N false a (ncomps (t_size a)) cwd rd tmp fs ds o tr s1 s2 DS MO RT FR E1 E2 FC PG PR CF TI).
Qed.
Print Assumptions C109_ocumakert.

(** No freedom is left, once the drawn names are fixed. *)
Theorem C109_determined : forall std dump a dir tmp c0 v1 v2 Q comps out out' fs f f',
  compositions c0 v1 v2 Q comps out -> compositions c0 v1 v2 Q comps out' ->
  filed std dump a dir tmp out fs f -> filed std dump a dir tmp out' fs f' -> f = f'.
Proof.
  intros std dump a dir tmp c0 v1 v2 Q comps out out' fs f f' C C' F F'. rewrite (compositions_fun C' C) in F'. exact (filed_fun F F').
Qed.
Print Assumptions C109_determined.

(** The hypotheses are met by two boron and two nitrogen sites (see C66_ex); carbon takes the
    first set: its files in the order of the drawn names. *)
Example C109_ex :
  let r := tenter_run mx_ops mx_wy x_psize x_std poly x_dump mx_app 1 1 "/w" "ABCDE" (first_unused 100) (fun _ => None) (fun _ => false) in
  o_exn r = None /\ exists out,
    compositions mx_cell 6 8 (fun n1 n2 S => leader2 (sym_perm mx_occ) [5; 5; 7; 7]%Z (any_site [5; 5; 7; 7]%Z) n1 n2 6 8 S /\
      wanted_pair x_psize false None mx_cell 6 8 S) [(1, 1)] out /\
    filed x_std x_dump mx_app "/w/STRUCTURES_x_ABCDE" (first_unused 100) out (fun _ => None) (o_files r).
Proof.
  assert (CF : collision_free poly (two_fold (numbers mx_cell) 1 6 1 8)) by (apply two_fold_poly; repeat constructor; cbn; lia).
  exact (C109_ocutenter 100 mx_ops mx_wy x_psize x_std poly x_dump mx_app 1 1 "/w" "ABCDE" (first_unused 100) (fun _ => None) (fun _ => false) mx_occ None _ _
    eq_refl mx_new eq_refl (first_unused_fresh 100) eq_refl eq_refl mx_fc mx_group mx_preserves CF mx_inputs).
Qed.
Example C109_ex_files :
  let r := tenter_run mx_ops mx_wy x_psize x_std poly x_dump (mkTapp mx_cell "x" 5 2 "C" "O" None false "vasp" false) 1 1 "/w" "ABCDE" (first_unused 100) (fun _ => None) (fun _ => false) in
  map (fun p => match o_files r p with Some _ => true | None => false end)
    ["/w/STRUCTURES_x_ABCDE/POSCAR_A0B1C1_.vasp"; "/w/STRUCTURES_x_ABCDE/POSCAR_A0B1C1_xxxxx.vasp"; "/w/STRUCTURES_x_ABCDE/POSCAR_A0B1C1_xxxxxx.vasp"]%string = [true; true; false] /\
  o_files r "/w/STRUCTURES_x_ABCDE/POSCAR_A0B1C1_x.vasp"%string = match render x_dump Fvasp (decorated mx_cell [6; 5; 8; 7]%Z) with Ok t => Some t | Raise _ => None end.
Proof. vm_compute. split; reflexivity. Qed.
