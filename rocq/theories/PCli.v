(** Properties C65, C66, C74: the enumeration commands. *)
From Coq Require Import String Ascii.
From Verif Require Import Base BaseQ SElement MElement LElement MGeneralCell SGeneralCell MRestrict MSogen LSymDec MText MIO SIO LIO6
  SSubst SSym SOcc SEnum LMisc LSogen SCli MCli SCliApp LCli LCli2 LCli3 LCli4 LPermDec LCli5 LCli6.
Open Scope list_scope.
Open Scope nat_scope.
Notation length := List.length.

(** C65.  What a run of ocubiter / ocumaker leaves behind, for every stream of structures
    and every sequence of suffixes. *)
Theorem C65_ocubiter_run : forall ops wy psize std h dump a cwd rd suffix fs ds o tr,
  ds (cwd ++ "/STRUCTURES_" ++ a_comment a ++ "_" ++ rd)%string = false ->
  OccupyGenerator_new (ops (a_cell a)) (wy (a_cell a)) (a_cell a) = Ok o -> restriction_of (a_tr a) = Ok tr ->
  let r := biter_run ops wy psize std h dump a cwd rd suffix fs ds in
  run_result psize std dump a tr (cwd ++ "/STRUCTURES_" ++ a_comment a ++ "_" ++ rd) suffix
    (items (gen_nodup_of_ele h o (a_ele a) (a_n a) (a_speckle a))) fs r.
Proof.
  intros ops wy psize std h dump a cwd rd suffix fs ds o tr D MO RT.
  destruct (@run_app_spec ops wy psize std dump a (fun o => [gen_nodup_of_ele h o (a_ele a) (a_n a) (a_speckle a)]) cwd rd suffix fs ds o tr D MO RT) as (H & _).
  cbn [List.flat_map] in H. rewrite app_nil_r in H. exact H.
Qed.
Print Assumptions C65_ocubiter_run.

Theorem C65_ocumaker_run : forall ops wy psize std h dump a cwd rd suffix fs ds o tr,
  ds (cwd ++ "/STRUCTURES_" ++ a_comment a ++ "_" ++ rd)%string = false ->
  OccupyGenerator_new (ops (a_cell a)) (wy (a_cell a)) (a_cell a) = Ok o -> restriction_of (a_tr a) = Ok tr ->
  let r := maker_run ops wy psize std h dump a cwd rd suffix fs ds in
  run_result psize std dump a tr (cwd ++ "/STRUCTURES_" ++ a_comment a ++ "_" ++ rd) suffix
    (List.flat_map (@items gcell) (all_speckle_gen_of_ele h o (a_n a) (a_ele a) (a_speckle a))) fs r.
Proof.
  intros ops wy psize std h dump a cwd rd suffix fs ds o tr D MO RT.
  exact (proj1 (@run_app_spec ops wy psize std dump a (fun o => all_speckle_gen_of_ele h o (a_n a) (a_ele a) (a_speckle a)) cwd rd suffix fs ds o tr D MO RT)).
Qed.
Print Assumptions C65_ocumaker_run.

(** Different suffixes for equal formulas: every structure has its own file. *)
Theorem C65_one_file_each : forall refine dump refined mode dir suffix kept ws m fs fs',
  (forall k, String.length (suffix k) = m) -> suffixes_distinct refine refined suffix kept ->
  indexed (fun k => structure_file refine dump refined mode dir (suffix k)) kept ws -> after_writes fs ws fs' ->
  each_has_its_file fs ws fs'.
Proof. intros refine dump refined mode dir suffix kept ws m fs fs' L SD I AW. exact (aw_each AW (distinct_paths L SD I)). Qed.
Print Assumptions C65_one_file_each.

(** Exact space group and no hash collision: exactly one wanted structure per symmetry
    class is written, and the run ends normally. *)
Theorem C65_ocubiter_classes : forall ops wy psize std h dump a n cwd rd suffix fs ds o tr,
  let D := k_fold (numbers (a_cell a)) (site_holds (numbers (a_cell a)) (a_ele a)) n (a_speckle a) in
  ds (cwd ++ "/STRUCTURES_" ++ a_comment a ++ "_" ++ rd)%string = false ->
  OccupyGenerator_new (ops (a_cell a)) (wy (a_cell a)) (a_cell a) = Ok o -> restriction_of (a_tr a) = Ok tr -> a_n a = Z.of_nat n ->
  from_constructor (a_cell a) -> perm_group (length (numbers (a_cell a))) (sym_perm o) -> preserves (sym_perm o) (numbers (a_cell a)) ->
  collision_free h D -> class_inputs psize std a tr o D ->
  class_result psize std dump a tr o D (cwd ++ "/STRUCTURES_" ++ a_comment a ++ "_" ++ rd) suffix fs
    (biter_run ops wy psize std h dump a cwd rd suffix fs ds).
Proof. intros ops wy psize std h dump a n cwd rd suffix fs ds o tr. exact (@biter_classes ops wy psize std h dump a n cwd rd suffix fs ds o tr). Qed.
Print Assumptions C65_ocubiter_classes.

Theorem C65_ocumaker_classes : forall ops wy psize std h dump a cwd rd suffix fs ds o tr,
  ds (cwd ++ "/STRUCTURES_" ++ a_comment a ++ "_" ++ rd)%string = false ->
  OccupyGenerator_new (ops (a_cell a)) (wy (a_cell a)) (a_cell a) = Ok o -> restriction_of (a_tr a) = Ok tr ->
  from_constructor (a_cell a) -> perm_group (length (numbers (a_cell a))) (sym_perm o) -> preserves (sym_perm o) (numbers (a_cell a)) ->
  (forall k, k <= Z.to_nat (a_n a - Z.of_nat (count_occ Z.eq_dec (numbers (a_cell a)) (a_speckle a))) ->
     collision_free h (k_fold (numbers (a_cell a)) (fun i => site_holds (numbers (a_cell a)) (a_ele a) i /\ site_not (numbers (a_cell a)) (a_speckle a) i) k (a_speckle a))) ->
  class_inputs psize std a tr o (maker_set a) ->
  class_result psize std dump a tr o (maker_set a) (cwd ++ "/STRUCTURES_" ++ a_comment a ++ "_" ++ rd) suffix fs
    (maker_run ops wy psize std h dump a cwd rd suffix fs ds).
Proof. intros ops wy psize std h dump a cwd rd suffix fs ds o tr. exact (@maker_classes ops wy psize std h dump a cwd rd suffix fs ds o tr). Qed.
Print Assumptions C65_ocumaker_classes.

(** Without refinement all structures of one ocubiter run share one formula, so there are
    at most as many files as suffixes. *)
Theorem C65_no_more_files_than_suffixes : forall ops wy psize std h dump a n cwd rd suffix fs ds o tr S,
  ds (cwd ++ "/STRUCTURES_" ++ a_comment a ++ "_" ++ rd)%string = false ->
  OccupyGenerator_new (ops (a_cell a)) (wy (a_cell a)) (a_cell a) = Ok o -> restriction_of (a_tr a) = Ok tr -> a_n a = Z.of_nat n ->
  from_constructor (a_cell a) -> a_ele a <> a_speckle a -> a_refined a = false -> (forall k, In (suffix k) S) ->
  let r := biter_run ops wy psize std h dump a cwd rd suffix fs ds in
  exists L, length L = length S /\ forall p, ~ In p L -> o_files r p = fs p.
Proof.
  intros ops wy psize std h dump a n cwd rd suffix fs ds o tr S D MO RT EN FC NE UR HS.
  exact (@biter_few ops wy psize std h dump a n cwd rd suffix fs ds o tr D MO RT EN FC NE UR S HS).
Qed.
Print Assumptions C65_no_more_files_than_suffixes.

(** More than 36^4 structures of one composition: whatever is drawn, some are lost. *)
Theorem C65_losses_unavoidable : forall std dump mode dir (suffix : nat -> string) m kept ws,
  (forall k, suffix_word m (suffix k)) ->
  (forall c d, In c kept -> In d kept -> Permutation (numbers c) (numbers d)) ->
  indexed (fun k => structure_file (get_refined_pcell std) dump false mode dir (suffix k)) kept ws ->
  (36 ^ Z.of_nat m < Z.of_nat (length kept))%Z -> ~ NoDup (map fst ws).
Proof. exact too_many. Qed.
Print Assumptions C65_losses_unavoidable.

(** Which format: always what the whole path says. *)
Theorem C65_format : forall refine dump refined mode dir suffix c p t, structure_file refine dump refined mode dir suffix c (p, t) ->
  exists c', written_cell refine refined c c' /\
    (contains_any_case ".yaml" p -> render dump Fyaml c' = Ok t) /\
    (~ contains_any_case ".yaml" p -> render dump Fvasp c' = Ok t).
Proof.
  intros refine dump refined mode dir suffix c p t (c' & com & f & E1 & _ & _ & E4 & E5). exists c'. cbn [fst snd] in *. split; [exact E1|].
  destruct (choose_spec p None) as (A & B & _).
  split; intros H.
  - rewrite (proj2 A) in E4 by (right; exact H). injection E4 as <-. exact E5.
  - destruct f; [|exact E5]. apply A in E4. destruct E4 as [(x & K & _)|K]; [discriminate|contradiction].
Qed.
Print Assumptions C65_format.

(** Errors before anything is written. *)
Theorem C65_existing_directory : forall ops wy psize std dump a gens cwd rd suffix fs ds,
  ds (cwd ++ "/STRUCTURES_" ++ a_comment a ++ "_" ++ rd)%string = true ->
  run_app ops wy psize std dump a gens cwd rd suffix fs ds = mkOut fs ds (Some NameError).
Proof. intros. unfold run_app, structures_dir, slash. change ("STRUCTURES_" ++ a_comment a ++ "_" ++ rd)%string with ("STRUCTURES_" ++ (a_comment a ++ "_" ++ rd))%string. cbn [String.append] in *. rewrite H. reflexivity. Qed.
Print Assumptions C65_existing_directory.

Theorem C65_one_atom : forall default cell com sp n trs refined mode mpr, length (numbers cell) <= 1 -> (exists s, comment cell = Ok s) ->
  App_new default cell com None sp n trs refined mode mpr = Raise IndexError.
Proof.
  intros default cell com sp n trs refined mode mpr L (s & E). unfold App_new.
  assert (exists s', comment_or com cell = Ok s') as (s' & ->).
  { unfold comment_or. destruct com as [x|]; [destruct (String.eqb x "")|]; eauto. }
  cbn [bind target]. unfold get_nth. rewrite (proj2 (nth_error_None (numbers cell) 1)) by exact L. reflexivity.
Qed.
Print Assumptions C65_one_atom.

(** *** Example: the four boron sites of the square net, two of them replaced by carbon *)
Definition x_ops (_ : gcell) : list symop := sq_ops.
Definition x_wy (_ : gcell) : list string := ["a"; "a"; "a"; "a"]%string.
Definition x_psize (s : mat Qc * list (vec Qc) * list Z) : nat := length (snd s).
Definition x_std (s : mat Qc * list (vec Qc) * list Z) := s.
Definition x_dump (_ : ydoc) : string := "y"%string.
Definition x_app : app := mkApp sq_cell "B4" 5 6 2 None false "vasp" true.
Example C65_ex_app : biter_new sq_cell None (Some "B"%string) (Some "C"%string) (Some 2%Z) [] false "vasp" true = Ok x_app.
Proof. vm_compute. reflexivity. Qed.
Lemma x_kfold_two P k x : k_fold [5; 5; 5; 5]%Z P k 6 x -> Forall (fun z => z = 5%Z \/ z = 6%Z) x /\ length x = 4.
Proof.
  intros (S & _ & L & H). split; [|exact L]. apply Forall_forall. intros z I. apply In_nth_error in I as (i & E).
  assert (i < 4) by (change 4 with (length [5; 5; 5; 5]%Z); rewrite <- L; apply nth_error_Some; congruence).
  assert (A : nth_error [5; 5; 5; 5]%Z i = Some 5%Z) by (do 4 (destruct i as [|i]; [reflexivity|]); lia).
  destruct (H i _ A) as [H1 H2]. destruct (in_dec Nat.eq_dec i S) as [K|K]; [rewrite (H1 K) in E|rewrite (H2 K) in E]; injection E as <-; auto.
Qed.
Lemma x_inputs P k : class_inputs x_psize x_std x_app None sq_occ (k_fold (numbers (a_cell x_app)) P k 6).
Proof.
  split; [now left|]. split; [|split].
  - intros x Hx. exists (decorated (a_cell x_app) x). split; [reflexivity|]. destruct (x_kfold_two P k x Hx) as [F _].
    eapply Forall_impl; [|exact F]. intros z [->| ->]; unfold supported; lia.
  - intros x z d _ [=].
  - intros x y _ _ _ _. split; [reflexivity|intros z d [=]].
Qed.
Example C65_ex : exists o,
  OccupyGenerator_new (x_ops (a_cell x_app)) (x_wy (a_cell x_app)) (a_cell x_app) = Ok o /\
  from_constructor (a_cell x_app) /\ perm_group 4 (sym_perm o) /\ preserves (sym_perm o) (numbers (a_cell x_app)) /\
  collision_free poly (k_fold (numbers (a_cell x_app)) (site_holds (numbers (a_cell x_app)) 5) 2 6) /\
  class_inputs x_psize x_std x_app None o (k_fold (numbers (a_cell x_app)) (site_holds (numbers (a_cell x_app)) 5) 2 6) /\
  length (items (gen_nodup_of_ele poly o 5 2 6)) = 3.
Proof.
  exists sq_occ. split; [exact sq_occ_new|]. split; [exact sq_fc|]. split; [exact sq_group|]. split; [exact sq_preserves|].
  split; [apply kfold_poly; repeat constructor; lia|]. split; [apply x_inputs|vm_compute; reflexivity].
Qed.
Definition x_suffix (k : nat) : string := match k with 0 => "AAAA" | 1 => "AAAB" | _ => "9ZZZ" end.
Example C65_ex_files :
  let r := biter_run x_ops x_wy x_psize x_std poly x_dump x_app "/w" "ABCDE" x_suffix (fun _ => None) (fun _ => false) in
  o_exn r = None /\
  map (o_files r) ["/w/STRUCTURES_B4_ABCDE/STRUCTURE_B2C2_AAAA.vasp"; "/w/STRUCTURES_B4_ABCDE/STRUCTURE_B2C2_AAAB.vasp"]%string =
  map (fun x => match render x_dump Fvasp (decorated sq_cell x) with Ok t => Some t | Raise _ => None end) [[6;6;5;5]; [6;5;6;5]]%Z.
Proof. vm_compute. split; reflexivity. Qed.

(** The property is violated: three wanted structures, one file. *)
Theorem C65_collision_refuted : exists ops wy psize std h dump a cwd rd (suffix : nat -> string) ds o,
  OccupyGenerator_new (ops (a_cell a)) (wy (a_cell a)) (a_cell a) = Ok o /\
  (forall k, suffix_word 4 (suffix k)) /\
  length (items (gen_nodup_of_ele h o (a_ele a) (a_n a) (a_speckle a))) = 3 /\
  Forall (wanted psize (a_mpr a) None) (items (gen_nodup_of_ele h o (a_ele a) (a_n a) (a_speckle a))) /\
  a_tr a = None /\
  forall fs, o_exn (biter_run ops wy psize std h dump a cwd rd suffix fs ds) = None /\
    exists p, forall q, q <> p -> o_files (biter_run ops wy psize std h dump a cwd rd suffix fs ds) q = fs q.
Proof.
  exists x_ops, x_wy, x_psize, x_std, poly, x_dump, x_app, "/w"%string, "ABCDE"%string, (fun _ => "AAAA"%string), (fun _ => false), sq_occ.
  split; [exact sq_occ_new|]. split.
  { intros k. split; [reflexivity|]. intros c I. cbn in I. destruct I as [<-|[<-|[<-|[<-|[]]]]]; now left. }
  split; [vm_compute; reflexivity|]. split.
  { apply Forall_forall. intros c _. split; [reflexivity|intros z d [=]]. }
  split; [reflexivity|]. intros fs. split.
  - assert (CF : collision_free poly (k_fold (numbers (a_cell x_app)) (site_holds (numbers (a_cell x_app)) 5) 2 6))
      by (apply kfold_poly; repeat constructor; lia).
    exact (proj1 (C65_ocubiter_classes x_ops x_wy x_psize x_std poly x_dump x_app 2 "/w" "ABCDE" (fun _ => "AAAA"%string) fs (fun _ => false) sq_occ None
      eq_refl sq_occ_new eq_refl eq_refl sq_fc sq_group sq_preserves CF (x_inputs _ _))).
  - destruct (C65_no_more_files_than_suffixes x_ops x_wy x_psize x_std poly x_dump x_app 2 "/w" "ABCDE" (fun _ => "AAAA"%string) fs (fun _ => false) sq_occ None ["AAAA"%string])
      as (L & HL & H); try reflexivity; [exact sq_fc|discriminate|intros k; now left|].
    destruct L as [|p [|? ?]]; try discriminate. exists p. intros q N. apply H. intros [E|[]]. now apply N.
Qed.
Print Assumptions C65_collision_refuted.

(** C66.  The ternary applications: the sites that are changed are any sites of the cell,
    whatever element was chosen; the element only enters the names. *)
Theorem C66_ocutenter_classes : forall N ops wy psize std h dump a n1 n2 cwd rd tmp fs ds o tr s1 s2,
  ds (cwd ++ "/STRUCTURES_" ++ t_comment a ++ "_" ++ rd)%string = false ->
  OccupyGenerator_new (ops (t_cell a)) (wy (t_cell a)) (t_cell a) = Ok o -> restriction_of (t_tr a) = Ok tr -> fresh_names N tmp ->
  Specie_new (t_s1 a) = Ok s1 -> Specie_new (t_s2 a) = Ok s2 ->
  from_constructor (t_cell a) -> perm_group (length (numbers (t_cell a))) (sym_perm o) -> preserves (sym_perm o) (numbers (t_cell a)) ->
  collision_free h (two_fold (numbers (t_cell a)) n1 (sp_Z s1) n2 (sp_Z s2)) ->
  ternary_inputs psize std a tr o (sp_Z s1) (sp_Z s2) [(n1, n2)] ->
  ternary_result psize std dump N a tr o (sp_Z s1) (sp_Z s2) [(n1, n2)] (cwd ++ "/STRUCTURES_" ++ t_comment a ++ "_" ++ rd) fs
    (tenter_run ops wy psize std h dump a (Z.of_nat n1) (Z.of_nat n2) cwd rd tmp fs ds).
Proof.
  intros N ops wy psize std h dump a n1 n2 cwd rd tmp fs ds o tr s1 s2 DS MO RT FR E1 E2 FC PG PR CF TI.
  assert (CF' : forall m1 m2, In (m1, m2) [(n1, n2)] -> collision_free h (two_fold (numbers (t_cell a)) m1 (sp_Z s1) m2 (sp_Z s2)))
    by (intros m1 m2 [[= <- <-]|[]]; exact CF).
  exact (@ternary_classes ops wy psize std h dump N true a [(n1, n2)] cwd rd tmp fs ds o tr s1 s2 DS MO RT FR E1 E2 FC PG PR CF' TI).
Qed.
Print Assumptions C66_ocutenter_classes.

(** If all sites hold the chosen element, the counts in the names are those of the structure. *)
Theorem C66_counts_in_names : forall init n1 v1 n2 v2 e x, two_fold init n1 v1 n2 v2 x -> Forall (eq e) init -> v1 <> v2 -> v1 <> e -> v2 <> e ->
  count_occ Z.eq_dec x v1 = n1 /\ count_occ Z.eq_dec x v2 = n2 /\ count_occ Z.eq_dec x e = length init - n1 - n2.
Proof. exact two_fold_counts. Qed.
Print Assumptions C66_counts_in_names.

(** Violation, in every cell with a site of another element: a structure is written in which
    a site holding that other element is overwritten.  [b] is arbitrary, in particular it may
    differ from the chosen element [t_ele a]. *)
Theorem C66_other_elements_overwritten : forall N psize std dump a tr o v1 v2 comps dir fs r n1 n2 i b,
  ternary_result psize std dump N a tr o v1 v2 comps dir fs r -> In (n1, n2) comps ->
  perm_group (length (numbers (t_cell a))) (sym_perm o) -> preserves (sym_perm o) (numbers (t_cell a)) ->
  (forall x, two_fold (numbers (t_cell a)) n1 v1 n2 v2 x -> wanted psize (t_mpr a) tr (decorated (t_cell a) x)) ->
  1 <= n1 -> n1 + n2 <= length (numbers (t_cell a)) -> nth_error (numbers (t_cell a)) i = Some b ->
  exists ws c w j, new_if_room N fs ws (o_files r) /\ In w ws /\
    ternary_file (get_refined_pcell std) dump (t_refined a) (t_outmode a) dir (Z.of_nat (t_size a) - Z.of_nat n1 - Z.of_nat n2)%Z (Z.of_nat n1) (Z.of_nat n2) c w /\
    same_frame (t_cell a) c /\
    nth_error (numbers (t_cell a)) j = Some b /\ nth_error (numbers c) j = Some v1.
Proof. exact ternary_violation. Qed.
Print Assumptions C66_other_elements_overwritten.

(** *** Example: two boron and two nitrogen sites, boron chosen *)
Definition mx_cell : gcell := mkG sq_lat sq_pos [5; 5; 7; 7]%Z (sq_lat, sq_pos, [5; 5; 7; 7]%Z) 4.
Definition mx_occ : occ := mkOcc mx_cell [[0;1;2;3]; [1;0;3;2]] ["a"; "a"; "b"; "b"]%string.
Definition mx_ops (_ : gcell) : list symop := firstn 2 sq_ops.
Definition mx_wy (_ : gcell) : list string := ["a"; "a"; "b"; "b"]%string.
Definition mx_app : tapp := mkTapp mx_cell "x" 5 2 "C" "O" None false "yaml" false.
Example C66_ex_app : Tapp_new sq_lat sq_pos [5; 5; 7; 7]%Z 1 "x" (Some "B"%string) "C" "O" [] false "yaml" false = Ok mx_app.
Proof. vm_compute. reflexivity. Qed.
Lemma mx_new : OccupyGenerator_new (mx_ops mx_cell) (mx_wy mx_cell) mx_cell = Ok mx_occ.
Proof. vm_compute. reflexivity. Qed.
Lemma mx_fc : from_constructor mx_cell.
Proof. exists sq_lat, sq_pos, [5; 5; 7; 7]%Z. split; [reflexivity|]. vm_compute. reflexivity. Qed.
Lemma mx_group : perm_group 4 (sym_perm mx_occ).
Proof. apply perm_groupb_ok. vm_compute. reflexivity. Qed.
Lemma mx_preserves : preserves (sym_perm mx_occ) [5; 5; 7; 7]%Z.
Proof. apply preservesb_ok. vm_compute. reflexivity. Qed.
Lemma mx_values x : two_fold [5; 5; 7; 7]%Z 1 6 1 8 x -> Forall supported x.
Proof.
  intros (S1 & S2 & _ & _ & _ & L & H). apply Forall_forall. intros z I. apply In_nth_error in I as (i & E).
  assert (Hi : i < length [5; 5; 7; 7]%Z) by (rewrite <- L; apply nth_error_Some; congruence).
  destruct (nth_error [5; 5; 7; 7]%Z i) as [b|] eqn:Eb; [|apply nth_error_None in Eb; lia].
  destruct (H i b Eb) as (A1 & A2 & A3). assert (K : z = 6%Z \/ z = 8%Z \/ z = b).
  { destruct (in_dec Nat.eq_dec i S1) as [I|I]; [rewrite (A1 I) in E; injection E; auto|].
    destruct (in_dec Nat.eq_dec i S2) as [J|J]; [rewrite (A2 J) in E; injection E; auto|]. rewrite (A3 I J) in E. injection E; auto. }
  unfold supported. apply nth_error_In in Eb. cbn in Eb. lia.
Qed.
Lemma mx_inputs : ternary_inputs x_psize x_std mx_app None mx_occ 6 8 [(1, 1)].
Proof.
  intros n1 n2 [[= <- <-]|[]]. split; [|split].
  - intros x Hx. exists (decorated (t_cell mx_app) x). split; [reflexivity|]. exact (mx_values x Hx).
  - intros x z d _ [=].
  - intros x y _ _ _ _. split; [intros [=]|intros z d [=]].
Qed.
Example C66_ex : exists s1 s2, Specie_new (t_s1 mx_app) = Ok s1 /\ Specie_new (t_s2 mx_app) = Ok s2 /\ fresh_names 100 (first_unused 100) /\
  OccupyGenerator_new (mx_ops mx_cell) (mx_wy mx_cell) mx_cell = Ok mx_occ /\ from_constructor mx_cell /\ perm_group 4 (sym_perm mx_occ) /\
  preserves (sym_perm mx_occ) (numbers mx_cell) /\ collision_free poly (two_fold (numbers mx_cell) 1 (sp_Z s1) 1 (sp_Z s2)) /\
  ternary_inputs x_psize x_std mx_app None mx_occ (sp_Z s1) (sp_Z s2) [(1, 1)].
Proof.
  eexists _, _. split; [reflexivity|]. split; [reflexivity|]. split; [apply first_unused_fresh|]. split; [exact mx_new|]. split; [exact mx_fc|].
  split; [exact mx_group|]. split; [exact mx_preserves|]. split; [apply two_fold_poly; repeat constructor; cbn; lia|exact mx_inputs].
Qed.
(** Boron is chosen, but in the fourth file a nitrogen site holds carbon. *)
Theorem C66_refuted : exists ops wy psize std h dump a tmp,
  fresh_names 100 tmp /\ t_ele a = 5%Z /\ numbers (t_cell a) = [5; 5; 7; 7]%Z /\ t_s1 a = "C"%string /\
  let r := tenter_run ops wy psize std h dump a 1 1 "/w" "ABCDE" tmp (fun _ => None) (fun _ => false) in
  o_exn r = None /\ exists p t c, o_files r p = Some t /\ render dump Fvasp c = Ok t /\ same_frame (t_cell a) c /\ numbers c = [8; 5; 6; 7]%Z.
Proof.
  exists mx_ops, mx_wy, x_psize, x_std, poly, x_dump, (mkTapp mx_cell "x" 5 2 "C" "O" None false "vasp" false), (first_unused 100).
  split; [apply first_unused_fresh|]. split; [reflexivity|]. split; [reflexivity|]. split; [reflexivity|]. split; [vm_compute; reflexivity|].
  exists "/w/STRUCTURES_x_ABCDE/POSCAR_A0B1C1_xxx.vasp"%string. eexists. exists (decorated mx_cell [8; 5; 6; 7]%Z).
  split; [vm_compute; reflexivity|]. split; [vm_compute; reflexivity|]. split; [|reflexivity]. repeat split.
Qed.
Print Assumptions C66_refuted.

(** C74.  ocumakert: every composition with at least one atom of each kind exactly once, and
    every structure in a file of its own. *)
Theorem C74_ocumakert_classes : forall N ops wy psize std h dump a cwd rd tmp fs ds o tr s1 s2,
  exists comps, NoDup comps /\ (forall n1 n2, In (n1, n2) comps <-> 1 <= n1 /\ 1 <= n2 /\ n1 + n2 < t_size a) /\
  (ds (cwd ++ "/STRUCTURES_" ++ t_comment a ++ "_" ++ rd)%string = false ->
  OccupyGenerator_new (ops (t_cell a)) (wy (t_cell a)) (t_cell a) = Ok o -> restriction_of (t_tr a) = Ok tr -> fresh_names N tmp ->
  Specie_new (t_s1 a) = Ok s1 -> Specie_new (t_s2 a) = Ok s2 ->
  from_constructor (t_cell a) -> perm_group (length (numbers (t_cell a))) (sym_perm o) -> preserves (sym_perm o) (numbers (t_cell a)) ->
  (forall n1 n2, In (n1, n2) comps -> collision_free h (two_fold (numbers (t_cell a)) n1 (sp_Z s1) n2 (sp_Z s2))) ->
  ternary_inputs psize std a tr o (sp_Z s1) (sp_Z s2) comps ->
  ternary_result psize std dump N a tr o (sp_Z s1) (sp_Z s2) comps (cwd ++ "/STRUCTURES_" ++ t_comment a ++ "_" ++ rd) fs
    (makert_run ops wy psize std h dump a cwd rd tmp fs ds)).
Proof.
  intros N ops wy psize std h dump a cwd rd tmp fs ds o tr s1 s2. exists (ncomps (t_size a)). split; [apply ncomps_NoDup|]. split; [apply ncomps_In|].
  intros DS MO RT FR E1 E2 FC PG PR CF TI. unfold makert_run. rewrite <- ncomps_z.
  exact (@ternary_classes ops wy psize std h dump N false a (ncomps (t_size a)) cwd rd tmp fs ds o tr s1 s2 DS MO RT FR E1 E2 FC PG PR CF TI).
Qed.
Print Assumptions C74_ocumakert_classes.
(** A one- or two-atom target: nothing is written. *)
Theorem C74_too_few : forall ops wy psize std h dump a cwd rd tmp fs ds p, t_size a < 3 ->
  o_files (makert_run ops wy psize std h dump a cwd rd tmp fs ds) p = fs p.
Proof.
  intros ops wy psize std h dump a cwd rd tmp fs ds p L. unfold makert_run. rewrite <- ncomps_z.
  replace (ncomps (t_size a)) with (@nil (nat * nat)).
  - unfold run_ternary. destruct (ds _); [reflexivity|]. destruct (bind _ _) as [[o tr]|]; reflexivity.
  - destruct (ncomps (t_size a)) as [|[n1 n2] l] eqn:E; [reflexivity|]. exfalso.
    assert (I : In (n1, n2) (ncomps (t_size a))) by (rewrite E; now left). apply ncomps_In in I. lia.
Qed.
Print Assumptions C74_too_few.
Definition x_tapp : tapp := mkTapp sq_cell "B4" 5 4 "C" "O" None false "vasp" false.
Example C74_ex : makert_comps 4 = [(1, 1); (1, 2); (2, 1)]%Z /\
  let r := makert_run x_ops x_wy x_psize x_std poly x_dump x_tapp "/w" "ABCDE" (first_unused 100) (fun _ => None) (fun _ => false) in
  o_exn r = None /\ map (fun p => match o_files r p with Some _ => true | None => false end)
    ["/w/STRUCTURES_B4_ABCDE/POSCAR_A2B1C1_.vasp"; "/w/STRUCTURES_B4_ABCDE/POSCAR_A2B1C1_x.vasp"; "/w/STRUCTURES_B4_ABCDE/POSCAR_A1B2C1_.vasp";
     "/w/STRUCTURES_B4_ABCDE/POSCAR_A1B1C2_x.vasp"; "/w/STRUCTURES_B4_ABCDE/POSCAR_A0B2C2_.vasp"]%string = [true; true; true; true; false].
Proof. split; [reflexivity|]. vm_compute. split; reflexivity. Qed.
