(** Property C113: how many files the commands leave in their directories. *)
From Coq Require Import String.
From Verif Require Import Base LBase BaseQ MElement SElement SGeneralCell MGeneralCell MComb SLattice SSubst SSym SOcc SEnum MSogen SBurn LDup LFilter LBurn LMisc LSymDec LSogen PSogen SCount PCount PBurn
  MHnf LHnf PHnf SModCell SShape LShape2 MIO SIO SCli MCli LCli LCli3 SCliApp SCliOne LCli4 LCli7 LCli8 PCli PCli2 SFileCount LFileCount.
Open Scope list_scope.
Open Scope nat_scope.
Notation length := List.length.

(** The numbers below are determined by what is said about them. *)
Theorem C113_unique : forall dir fs k k', files_below dir fs k -> files_below dir fs k' -> k = k'.
Proof. exact files_below_fun. Qed.
Print Assumptions C113_unique.
Theorem C113_burnside_unique : forall G D k k', G <> [] -> burnside_count G D k -> burnside_count G D k' -> k = k'.
Proof. exact burnside_fun. Qed.
Print Assumptions C113_burnside_unique.
Theorem C113_lattice_unique : forall rots D k k', rots <> [] -> lattice_count rots D k -> lattice_count rots D k' -> k = k'.
Proof. exact lattice_fun. Qed.
Print Assumptions C113_lattice_unique.

(** ocubiter: the order of the group times the number of files is the number of pairs of a
    symmetry and a wanted structure that it keeps, provided the suffixes drawn differ. *)
Theorem C113_ocubiter : forall ops wy psize std h dump a n cwd rd suffix m fs ds o tr,
  let D := k_fold (numbers (a_cell a)) (site_holds (numbers (a_cell a)) (a_ele a)) n (a_speckle a) in
  let dir := (cwd ++ "/STRUCTURES_" ++ a_comment a ++ "_" ++ rd)%string in
  ds dir = false -> nothing_below dir fs -> (forall k, String.length (suffix k) = m) ->
  OccupyGenerator_new (ops (a_cell a)) (wy (a_cell a)) (a_cell a) = Ok o -> restriction_of (a_tr a) = Ok tr -> a_n a = Z.of_nat n ->
  from_constructor (a_cell a) -> perm_group (length (numbers (a_cell a))) (sym_perm o) -> preserves (sym_perm o) (numbers (a_cell a)) ->
  collision_free h D -> class_inputs psize std a tr o D ->
  exists k, burnside_count (sym_perm o) (fun x => D x /\ wanted psize (a_mpr a) tr (decorated (a_cell a) x)) k /\
    (draws_differ suffix k -> files_below dir (o_files (biter_run ops wy psize std h dump a cwd rd suffix fs ds)) k).
Proof.
  intros ops wy psize std h dump a n cwd rd suffix m fs ds o tr D dir DS NB LS MO RT EN FC PG PR CF CI.
  apply (@class_count psize std dump a tr o D dir suffix m fs _ PG); auto.
  - intros x Hx. exact (kfold_length Hx).
  - intros x y Hx E. apply (@kfold_closed _ _ _ _ _ _ x y PG eq_refl PR (inv_holds (a_ele a) PR) (fun i Hi => holds_lt Hi) Hx E).
  - exact (@C65_ocubiter_classes ops wy psize std h dump a n cwd rd suffix fs ds o tr DS MO RT EN FC PG PR CF CI).
Qed.
Print Assumptions C113_ocubiter.

Theorem C113_ocumaker : forall ops wy psize std h dump a cwd rd suffix m fs ds o tr,
  let dir := (cwd ++ "/STRUCTURES_" ++ a_comment a ++ "_" ++ rd)%string in
  ds dir = false -> nothing_below dir fs -> (forall k, String.length (suffix k) = m) ->
  OccupyGenerator_new (ops (a_cell a)) (wy (a_cell a)) (a_cell a) = Ok o -> restriction_of (a_tr a) = Ok tr ->
  from_constructor (a_cell a) -> perm_group (length (numbers (a_cell a))) (sym_perm o) -> preserves (sym_perm o) (numbers (a_cell a)) ->
  (forall k, k <= Z.to_nat (a_n a - Z.of_nat (count_occ Z.eq_dec (numbers (a_cell a)) (a_speckle a))) ->
     collision_free h (k_fold (numbers (a_cell a)) (fun i => site_holds (numbers (a_cell a)) (a_ele a) i /\ site_not (numbers (a_cell a)) (a_speckle a) i) k (a_speckle a))) ->
  class_inputs psize std a tr o (maker_set a) ->
  exists k, burnside_count (sym_perm o) (fun x => maker_set a x /\ wanted psize (a_mpr a) tr (decorated (a_cell a) x)) k /\
    (draws_differ suffix k -> files_below dir (o_files (maker_run ops wy psize std h dump a cwd rd suffix fs ds)) k).
Proof.
  intros ops wy psize std h dump a cwd rd suffix m fs ds o tr dir DS NB LS MO RT FC PG PR CF CI.
  apply (@class_count psize std dump a tr o (maker_set a) dir suffix m fs _ PG); auto.
  - intros x (k & _ & Hx). exact (kfold_length Hx).
  - intros x y (k & Hk & Hx) E. exists k. split; [exact Hk|].
    apply (@kfold_closed _ _ _ _ _ _ x y PG eq_refl PR (inv_and (inv_holds (a_ele a) PR) (inv_not (a_speckle a) PR)) (fun i Hi => holds_lt (proj1 Hi)) Hx E).
  - exact (@C65_ocumaker_classes ops wy psize std h dump a cwd rd suffix fs ds o tr DS MO RT FC PG PR CF CI).
Qed.
Print Assumptions C113_ocumaker.

(** The two ternary commands: the numbers of the compositions added up, as long as the names
    are not used up. *)
Theorem C113_ocutenter : forall N ops wy psize std h dump a n1 n2 cwd rd tmp fs ds o tr s1 s2,
  let dir := (cwd ++ "/STRUCTURES_" ++ t_comment a ++ "_" ++ rd)%string in
  ds dir = false -> nothing_below dir fs ->
  OccupyGenerator_new (ops (t_cell a)) (wy (t_cell a)) (t_cell a) = Ok o -> restriction_of (t_tr a) = Ok tr -> fresh_names N tmp ->
  Specie_new (t_s1 a) = Ok s1 -> Specie_new (t_s2 a) = Ok s2 ->
  from_constructor (t_cell a) -> perm_group (length (numbers (t_cell a))) (sym_perm o) -> preserves (sym_perm o) (numbers (t_cell a)) ->
  collision_free h (two_fold (numbers (t_cell a)) n1 (sp_Z s1) n2 (sp_Z s2)) ->
  ternary_inputs psize std a tr o (sp_Z s1) (sp_Z s2) [(n1, n2)] ->
  exists k, burnside_count (sym_perm o) (fun x => two_fold (numbers (t_cell a)) n1 (sp_Z s1) n2 (sp_Z s2) x /\ wanted psize (t_mpr a) tr (decorated (t_cell a) x)) k /\
    forall f, files_at_most fs f -> f + k <= N ->
      files_below dir (o_files (tenter_run ops wy psize std h dump a (Z.of_nat n1) (Z.of_nat n2) cwd rd tmp fs ds)) k.
Proof.
  intros N ops wy psize std h dump a n1 n2 cwd rd tmp fs ds o tr s1 s2 dir DS NB MO RT FR E1 E2 FC PG PR CF TI.
  pose proof (@C66_ocutenter_classes N ops wy psize std h dump a n1 n2 cwd rd tmp fs ds o tr s1 s2 DS MO RT FR E1 E2 FC PG PR CF TI) as R.
  destruct (ternary_count PG PR TI R NB) as (ks & F & H). inversion F as [|? k ? l Hk Hl]; subst. inversion Hl; subst. exists k. split; [exact Hk|].
  cbn [list_sum fold_right] in H. rewrite Nat.add_0_r in H. exact H.
Qed.
Print Assumptions C113_ocutenter.

Theorem C113_ocumakert : forall N ops wy psize std h dump a cwd rd tmp fs ds o tr s1 s2,
  let dir := (cwd ++ "/STRUCTURES_" ++ t_comment a ++ "_" ++ rd)%string in
  exists comps, NoDup comps /\ (forall n1 n2, In (n1, n2) comps <-> 1 <= n1 /\ 1 <= n2 /\ n1 + n2 < t_size a) /\
  (ds dir = false -> nothing_below dir fs ->
  OccupyGenerator_new (ops (t_cell a)) (wy (t_cell a)) (t_cell a) = Ok o -> restriction_of (t_tr a) = Ok tr -> fresh_names N tmp ->
  Specie_new (t_s1 a) = Ok s1 -> Specie_new (t_s2 a) = Ok s2 ->
  from_constructor (t_cell a) -> perm_group (length (numbers (t_cell a))) (sym_perm o) -> preserves (sym_perm o) (numbers (t_cell a)) ->
  (forall n1 n2, In (n1, n2) comps -> collision_free h (two_fold (numbers (t_cell a)) n1 (sp_Z s1) n2 (sp_Z s2))) ->
  ternary_inputs psize std a tr o (sp_Z s1) (sp_Z s2) comps ->
  exists ks, Forall2 (fun n k => burnside_count (sym_perm o) (fun x => two_fold (numbers (t_cell a)) (fst n) (sp_Z s1) (snd n) (sp_Z s2) x /\ wanted psize (t_mpr a) tr (decorated (t_cell a) x)) k) comps ks /\
    forall f, files_at_most fs f -> f + list_sum ks <= N ->
      files_below dir (o_files (makert_run ops wy psize std h dump a cwd rd tmp fs ds)) (list_sum ks)).
Proof.
  intros N ops wy psize std h dump a cwd rd tmp fs ds o tr s1 s2 dir.
  destruct (@C74_ocumakert_classes N ops wy psize std h dump a cwd rd tmp fs ds o tr s1 s2) as (comps & ND & HC & R).
  exists comps. split; [exact ND|]. split; [exact HC|]. intros DS NB MO RT FR E1 E2 FC PG PR CF TI.
  exact (ternary_count PG PR TI (R DS MO RT FR E1 E2 FC PG PR CF TI) NB).
Qed.
Print Assumptions C113_ocumakert.

(** suplat: the order of the point group times the number of files is the number of pairs of
    a rotation and a superlattice of index [v] that it carries onto itself. *)
Theorem C113_suplat : forall std psize dump sl il rots u com v mode cwd suffix fs ds,
  set_order sl -> rot_group rots -> positions u <> [] -> length (positions u) = length (numbers u) -> Forall supported (numbers u) ->
  (0 < v < 2000)%Z -> mode = "vasp"%string \/ mode = "yaml"%string ->
  psize (spg_cell u) = length (snd (spg_cell u)) ->
  standardizes std -> SModCell.volume (lattice u) <> 0%Qc -> SShape.distinct_sites (lattice u) (positions u) ->
  exists a k, suplat_new psize (hnfs_from_n sl il rots) u com v mode = Ok a /\ lattice_count rots (is_hnf v) k /\
    let d := (cwd ++ "/SUPLAT_" ++ s_comment a)%string in
    ((ds d = false -> nothing_below d fs) -> draws_differ suffix k -> files_below d (o_files (suplat_run std dump a cwd suffix fs ds)) k).
Proof.
  intros std psize dump sl il rots u com v mode cwd suffix fs ds SL RG NE LU SU V M PS ST0 VU DU.
  destruct (C89_classes sl il rots u v SL RG V) as (out & E & LC).
  unfold suplat_new, is_primitive. rewrite PS, Nat.eqb_refl, E. cbn [bind]. eexists. exists (length out). split; [reflexivity|]. split; [exact LC|]. cbv zeta.
  set (a := mkSapp out _ v mode). intros NB DD.
  assert (V' : (v < 100000)%Z) by lia. pose proof (@all_shaped std u v NE LU VU DU V' ST0) as ST. assert (V0 : (0 < v)%Z) by lia.
  destruct (@suplat_whole std dump rots u v NE LU SU V' ST a cwd suffix fs ds (@gen3_made sl il rots u v out SL V0 E) eq_refl M)
    as (X & D & fs0 & ws & K1 & K2 & K3 & K4).
  replace (length out) with (length (map sl_H (s_hnfs a))) by apply map_length. exact (suplat_count K1 K3 NB (K4 DD)).
Qed.
Print Assumptions C113_suplat.

Theorem C113_suplat_2d : forall std psize dump sl il rots u com v mode cwd suffix fs ds,
  set_order sl -> rot_group rots -> Forall plane_rot rots -> positions u <> [] -> length (positions u) = length (numbers u) -> Forall supported (numbers u) ->
  (0 < v < 2000)%Z -> mode = "vasp"%string \/ mode = "yaml"%string ->
  psize (spg_cell u) = length (snd (spg_cell u)) ->
  standardizes std -> SModCell.volume (lattice u) <> 0%Qc -> SShape.distinct_sites (lattice u) (positions u) ->
  exists a k, suplat_new psize (hnfs_from_n_2d sl il rots) u com v mode = Ok a /\ lattice_count rots (is_hnf2 v) k /\
    let d := (cwd ++ "/SUPLAT_" ++ s_comment a)%string in
    ((ds d = false -> nothing_below d fs) -> draws_differ suffix k -> files_below d (o_files (suplat_run std dump a cwd suffix fs ds)) k).
Proof.
  intros std psize dump sl il rots u com v mode cwd suffix fs ds SL RG PL NE LU SU V M PS ST0 VU DU.
  destruct (C89_classes_plane sl il rots u v SL RG PL V) as (out & E & LC).
  unfold suplat_new, is_primitive. rewrite PS, Nat.eqb_refl, E. cbn [bind]. eexists. exists (length out). split; [reflexivity|]. split; [exact LC|]. cbv zeta.
  set (a := mkSapp out _ v mode). intros NB DD.
  assert (V' : (v < 100000)%Z) by lia. pose proof (@all_shaped std u v NE LU VU DU V' ST0) as ST. assert (V0 : (0 < v)%Z) by lia.
  destruct (@suplat_whole std dump rots u v NE LU SU V' ST a cwd suffix fs ds (@gen2_made sl il rots u v out SL V0 E) eq_refl M)
    as (X & D & fs0 & ws & K1 & K2 & K3 & K4).
  replace (length out) with (length (map sl_H (s_hnfs a))) by apply map_length. exact (suplat_count K1 K3 NB (K4 DD)).
Qed.
Print Assumptions C113_suplat_2d.

(** Two of the four boron sites of the square net replaced by carbon: three files. *)
Lemma x_three o : OccupyGenerator_new (x_ops (a_cell x_app)) (x_wy (a_cell x_app)) (a_cell x_app) = Ok o ->
  from_constructor (a_cell x_app) -> perm_group 4 (sym_perm o) -> preserves (sym_perm o) (numbers (a_cell x_app)) ->
  collision_free poly (k_fold (numbers (a_cell x_app)) (site_holds (numbers (a_cell x_app)) 5) 2 6) ->
  length (items (gen_nodup_of_ele poly o 5 2 6)) = 3 ->
  burnside_count (sym_perm o) (fun x => k_fold (numbers (a_cell x_app)) (site_holds (numbers (a_cell x_app)) (a_ele x_app)) 2 (a_speckle x_app) x /\
    wanted x_psize (a_mpr x_app) None (decorated (a_cell x_app) x)) 3.
Proof.
  intros MO FC PG PR CF L3.
  assert (EC : init_cell o = sq_cell) by (pose proof sq_occ_new as Q; unfold x_ops, x_wy in MO; assert (QQ : Ok sq_occ = Ok o) by (rewrite <- MO, <- Q; reflexivity); injection QQ as <-; reflexivity).
  pose proof (C82_element poly o 5%Z 2 6%Z) as C. rewrite EC in C. specialize (C FC PG PR CF). change (Z.of_nat 2) with 2%Z in C. rewrite L3 in C.
  destruct C as (Gs & Fs & A1 & [A2 A3] & A4). exists Gs, Fs. split; [exact A1|]. split; [|exact A4]. split; [exact A2|]. intros f. rewrite A3. unfold fixed_pair.
  assert (W : forall x, wanted x_psize (a_mpr x_app) None (decorated (a_cell x_app) x)) by (intros x; split; [reflexivity|intros z d [=]]).
  split; [intros (P1 & P2 & P3)|intros (P1 & [P2 _] & P3)]; repeat split; auto; try apply W; discriminate.
Qed.
Example C113_ex :
  files_below "/w/STRUCTURES_B4_ABCDE" (o_files (biter_run x_ops x_wy x_psize x_std poly x_dump x_app "/w" "ABCDE" x_suffix (fun _ => None) (fun _ => false))) 3.
Proof.
  destruct C65_ex as (o & MO & FC & PG & PR & CF & CI & L3).
  destruct (@C113_ocubiter x_ops x_wy x_psize x_std poly x_dump x_app 2 "/w" "ABCDE" x_suffix 4 (fun _ => None) (fun _ => false) o None) as (k & B & H); auto.
  { intros p _. reflexivity. }
  { intros [|[|k]]; reflexivity. }
  assert (NG : sym_perm o <> []) by (intros Z; destruct PG as (_ & I & _); rewrite Z in I; destruct I).
  rewrite (C113_burnside_unique _ _ _ _ NG B (x_three o MO FC PG PR CF L3)) in H. apply H.
  intros i j [Hij Hj]. destruct i as [|[|i]]; destruct j as [|[|[|j]]]; try lia; discriminate.
Qed.

Lemma x_comment psize gen u v mode a : suplat_new psize gen u (Some "x"%string) v mode = Ok a -> s_comment a = "x"%string.
Proof. unfold suplat_new. destruct (is_primitive psize u); [|discriminate]. destruct (gen u v) as [l|]; cbn [bind]; [|discriminate]. intros [= <-]. reflexivity. Qed.
(** The five superlattices of index two of a tetragonal cell: five files, the old one is gone. *)
Example C113_ex_suplat : exists a, suplat_new x_psize (hnfs_from_n first_order true c4) unit1 (Some "x"%string) 2 "vasp" = Ok a /\
  files_below "/w/SUPLAT_x" (o_files (suplat_run t_std x_dump a "/w" t_suffix t_old (fun _ => true))) 5.
Proof.
  destruct C75_ex as (SL & RG & SU & PS & ST & VU & DU & DD).
  assert (NE : positions unit1 <> []) by discriminate.
  destruct (C113_suplat t_std x_psize x_dump first_order true c4 unit1 (Some "x"%string) 2 "vasp" "/w" t_suffix t_old (fun _ => true)
    SL RG NE eq_refl SU ltac:(lia) (or_introl eq_refl) PS ST VU DU) as (a & k & E & LC & H).
  exists a. split; [exact E|].
  destruct C89_ex as (_ & _ & _ & _ & _ & out & EO & L5).
  destruct (C89_classes first_order true c4 unit1 2 SL RG ltac:(lia)) as (out' & EO' & LC').
  assert (length out' = 5) as L5' by congruence.
  assert (NC : c4 <> []) by discriminate.
  pose proof (C113_lattice_unique c4 (is_hnf 2) _ _ NC LC LC') as K. rewrite L5' in K. subst k.
  rewrite (x_comment _ _ _ _ _ _ E) in H. apply H; [discriminate|exact DD].
Qed.
