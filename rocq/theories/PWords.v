(** Property C112: from the words of a line to the exact files. *)
From Coq Require Import String Ascii Sorted Permutation.
From Verif Require Import Base BaseQ LQ SElement MElement LElement SLattice SSubst SSym MGeneralCell SGeneralCell MRestrict MSogen LSymDec MText MHnf PHnf PSuper
  MModCell SModCell SOcc SEnum LMisc LSogen MIO SIO SShape LShape SCli MCli SCliApp LCli LCli2 LCli3 LCli6 SCliOne SCliRead SCliArgs LCli7 LCli8
  MOpt SOpt LOpt LOpt2 LOpt3 LOpt4 LOpt5 SRun LRun LRun2 PRun LAny PCliArgs LElement LDeriv POnce PFlow LCodec PSession PFlowT PAny PShape PCli PCli2 SOrder SOrder2 LOrder SExact SListing LListing LListing2 PListing PListing2 SSuplat PSuplat SOne POne.
Open Scope string_scope.
Open Scope list_scope.
Open Scope nat_scope.
Notation length := List.length.

(** ** runaba *)
Theorem C112_ocubiter : forall spg wy psize std h dump load ls cbrt gen3 gen2 cwd rd suffix tmp argv fs ds evs f u a n o tr,
  asks "ocubiter" t_ocubiter fs ds argv evs f -> from_file load cbrt (Some f) None fs = Ok u -> Forall supported (numbers u) -> ocubiter_settings u evs a ->
  let D := k_fold (numbers (a_cell a)) (site_holds (numbers (a_cell a)) (a_ele a)) n (a_speckle a) in
  let dir := (cwd ++ "/STRUCTURES_" ++ a_comment a ++ "_" ++ rd)%string in
  ds dir = false -> OccupyGenerator_new (spg (a_cell a)) (wy (a_cell a)) (a_cell a) = Ok o -> restriction_of (a_tr a) = Ok tr -> a_n a = Z.of_nat n ->
  from_constructor (a_cell a) -> perm_group (length (numbers (a_cell a))) (sym_perm o) -> preserves (sym_perm o) (numbers (a_cell a)) ->
  collision_free h D -> class_inputs psize std a tr o D ->
  exists out, runaba spg wy psize std h dump load ls cbrt gen3 gen2 cwd rd suffix tmp argv fs ds = Called out /\
    left_behind std dump a dir suffix fs out
      (listing (a_cell a) (a_speckle a) (fun S => leader (sym_perm o) (numbers (a_cell a)) (site_holds (numbers (a_cell a)) (a_ele a)) n (a_speckle a) S /\
         wanted_set psize (a_mpr a) tr (a_cell a) (a_speckle a) S)).
Proof.
  intros spg wy psize std h dump load ls cbrt gen3 gen2 cwd rd suffix tmp argv fs ds evs f u a n o tr A R S ST D dir DS MO RT AN FC PG PR CF CI.
  eexists. split; [exact (C102_ocubiter spg wy psize std h dump load ls cbrt gen3 gen2 cwd rd suffix tmp argv fs ds evs f u a A R S ST)|].
  exact (C108_ocubiter spg wy psize std h dump a n cwd rd suffix fs ds o tr DS MO RT AN FC PG PR CF CI).
Qed.
Print Assumptions C112_ocubiter.

Theorem C112_ocumaker : forall spg wy psize std h dump load ls cbrt gen3 gen2 cwd rd suffix tmp argv fs ds evs f u a o tr,
  asks "ocumaker" t_ocumaker fs ds argv evs f -> from_file load cbrt (Some f) None fs = Ok u -> Forall supported (numbers u) -> ocumaker_settings u evs a ->
  let P := fun i => site_holds (numbers (a_cell a)) (a_ele a) i /\ site_not (numbers (a_cell a)) (a_speckle a) i in
  let n := Z.to_nat (a_n a - Z.of_nat (count_occ Z.eq_dec (numbers (a_cell a)) (a_speckle a))) in
  let dir := (cwd ++ "/STRUCTURES_" ++ a_comment a ++ "_" ++ rd)%string in
  ds dir = false -> OccupyGenerator_new (spg (a_cell a)) (wy (a_cell a)) (a_cell a) = Ok o -> restriction_of (a_tr a) = Ok tr ->
  from_constructor (a_cell a) -> perm_group (length (numbers (a_cell a))) (sym_perm o) -> preserves (sym_perm o) (numbers (a_cell a)) ->
  (forall k, k <= n -> collision_free h (k_fold (numbers (a_cell a)) P k (a_speckle a))) -> class_inputs psize std a tr o (maker_set a) ->
  exists out, runaba spg wy psize std h dump load ls cbrt gen3 gen2 cwd rd suffix tmp argv fs ds = Called out /\
    left_behind std dump a dir suffix fs out
      (listings (a_cell a) (a_speckle a) (fun k S => leader (sym_perm o) (numbers (a_cell a)) P k (a_speckle a) S /\
         wanted_set psize (a_mpr a) tr (a_cell a) (a_speckle a) S) n).
Proof.
  intros spg wy psize std h dump load ls cbrt gen3 gen2 cwd rd suffix tmp argv fs ds evs f u a o tr A R S ST P n dir DS MO RT FC PG PR CF CI.
  eexists. split; [exact (C102_ocumaker spg wy psize std h dump load ls cbrt gen3 gen2 cwd rd suffix tmp argv fs ds evs f u a A R S ST)|].
  exact (C108_ocumaker spg wy psize std h dump a cwd rd suffix fs ds o tr DS MO RT FC PG PR CF CI).
Qed.
Print Assumptions C112_ocumaker.

Theorem C112_ocutenter : forall N spg wy psize std h dump load ls cbrt gen3 gen2 cwd rd suffix tmp argv fs ds evs f t d a n1 n2 o tr s1 s2,
  asks "ocutenter" t_ocutenter fs ds argv evs f -> fs f = Some t -> ls t = Ok d -> ternary_settings d evs a ->
  switch evs "mpr" true (t_mpr a) -> couple evs "nspeckle" whole (Some (Z.of_nat n1, Z.of_nat n2)) ->
  let dir := (cwd ++ "/STRUCTURES_" ++ t_comment a ++ "_" ++ rd)%string in
  ds dir = false -> OccupyGenerator_new (spg (t_cell a)) (wy (t_cell a)) (t_cell a) = Ok o -> restriction_of (t_tr a) = Ok tr -> fresh_names N tmp ->
  Specie_new (t_s1 a) = Ok s1 -> Specie_new (t_s2 a) = Ok s2 ->
  from_constructor (t_cell a) -> perm_group (length (numbers (t_cell a))) (sym_perm o) -> preserves (sym_perm o) (numbers (t_cell a)) ->
  collision_free h (two_fold (numbers (t_cell a)) n1 (sp_Z s1) n2 (sp_Z s2)) ->
  ternary_inputs psize std a tr o (sp_Z s1) (sp_Z s2) [(n1, n2)] ->
  exists r, runaba spg wy psize std h dump load ls cbrt gen3 gen2 cwd rd suffix tmp argv fs ds = Called r /\
    o_exn r = None /\ exists out,
    compositions (t_cell a) (sp_Z s1) (sp_Z s2) (fun n1 n2 S =>
      leader2 (sym_perm o) (numbers (t_cell a)) (any_site (numbers (t_cell a))) n1 n2 (sp_Z s1) (sp_Z s2) S /\
      wanted_pair psize (t_mpr a) tr (t_cell a) (sp_Z s1) (sp_Z s2) S) [(n1, n2)] out /\
    filed std dump a dir tmp out fs (o_files r).
Proof.
  intros N spg wy psize std h dump load ls cbrt gen3 gen2 cwd rd suffix tmp argv fs ds evs f t d a n1 n2 o tr s1 s2 A F L ST SW CO dir DS MO RT FR E1 E2 FC PG PR CF TI.
  eexists. split; [exact (C102_ocutenter spg wy psize std h dump load ls cbrt gen3 gen2 cwd rd suffix tmp argv fs ds evs f t d a _ _ A F L ST SW CO)|].
  exact (C109_ocutenter N spg wy psize std h dump a n1 n2 cwd rd tmp fs ds o tr s1 s2 DS MO RT FR E1 E2 FC PG PR CF TI).
Qed.
Print Assumptions C112_ocutenter.

Theorem C112_ocumakert : forall N spg wy psize std h dump load ls cbrt gen3 gen2 cwd rd suffix tmp argv fs ds evs f t d a o tr s1 s2 comps,
  asks "ocumakert" t_ocumakert fs ds argv evs f -> fs f = Some t -> ls t = Ok d -> ternary_settings d evs a -> t_mpr a = true ->
  StronglySorted fewer comps -> (forall n1 n2, In (n1, n2) comps <-> 1 <= n1 /\ 1 <= n2 /\ n1 + n2 < t_size a) ->
  let dir := (cwd ++ "/STRUCTURES_" ++ t_comment a ++ "_" ++ rd)%string in
  ds dir = false -> OccupyGenerator_new (spg (t_cell a)) (wy (t_cell a)) (t_cell a) = Ok o -> restriction_of (t_tr a) = Ok tr -> fresh_names N tmp ->
  Specie_new (t_s1 a) = Ok s1 -> Specie_new (t_s2 a) = Ok s2 ->
  from_constructor (t_cell a) -> perm_group (length (numbers (t_cell a))) (sym_perm o) -> preserves (sym_perm o) (numbers (t_cell a)) ->
  (forall n1 n2, In (n1, n2) comps -> collision_free h (two_fold (numbers (t_cell a)) n1 (sp_Z s1) n2 (sp_Z s2))) ->
  ternary_inputs psize std a tr o (sp_Z s1) (sp_Z s2) comps ->
  exists r, runaba spg wy psize std h dump load ls cbrt gen3 gen2 cwd rd suffix tmp argv fs ds = Called r /\
    o_exn r = None /\ exists out,
    compositions (t_cell a) (sp_Z s1) (sp_Z s2) (fun n1 n2 S =>
      leader2 (sym_perm o) (numbers (t_cell a)) (any_site (numbers (t_cell a))) n1 n2 (sp_Z s1) (sp_Z s2) S /\
      wanted_pair psize (t_mpr a) tr (t_cell a) (sp_Z s1) (sp_Z s2) S) comps out /\
    filed std dump a dir tmp out fs (o_files r).
Proof.
  intros N spg wy psize std h dump load ls cbrt gen3 gen2 cwd rd suffix tmp argv fs ds evs f t d a o tr s1 s2 comps A F L ST MP SC IC dir DS MO RT FR E1 E2 FC PG PR CF TI.
  eexists. split; [exact (C102_ocumakert spg wy psize std h dump load ls cbrt gen3 gen2 cwd rd suffix tmp argv fs ds evs f t d a A F L ST MP)|].
  exact (C109_ocumakert N spg wy psize std h dump a cwd rd tmp fs ds o tr s1 s2 comps SC IC DS MO RT FR E1 E2 FC PG PR CF TI).
Qed.
Print Assumptions C112_ocumakert.

(** suplat, in space or, with the switch "ld", in the plane *)
Theorem C112_suplat : forall spg wy psize std hash dump load ls cbrt sl il cwd rd suffix tmp fs ds argv evs f u v mode com ld,
  asks "suplat" t_suplat fs ds argv evs f -> from_file load cbrt (Some f) None fs = Ok u ->
  single evs "volumn" whole 1%Z v -> switch evs "ld" false ld -> single evs "outmode" (among ["vasp"; "yaml"]) "yaml" mode -> optional evs "comment" text com ->
  set_order sl -> rot_group (map fst (spg u)) -> positions u <> [] -> length (positions u) = length (numbers u) -> Forall supported (numbers u) ->
  (0 < v < 2000)%Z -> psize (spg_cell u) = length (snd (spg_cell u)) ->
  standardizes std -> SModCell.volume (lattice u) <> 0%Qc -> SShape.distinct_sites (lattice u) (positions u) ->
  let gen3 := fun w => hnfs_from_n sl il (map fst (spg w)) w in let gen2 := fun w => hnfs_from_n_2d sl il (map fst (spg w)) w in
  let d := suplat_dir cwd com in
  exists r, runaba spg wy psize std hash dump load ls cbrt gen3 gen2 cwd rd suffix tmp argv fs ds = Called r /\
    o_exn r = None /\
    exists all hs fs0 ws, NoDup all /\ (forall m, In m all <-> if ld then is_hnf2 v m else is_hnf v m) /\ sorted_blocks all /\
      firsts (lat_equiv (map fst (spg u))) [] all hs /\
      emptied (ds d) d fs fs0 /\ after_writes fs0 ws (o_files r) /\
      indexed (fun k => exact_suplat std dump mode d v u (suffix k)) hs ws.
Proof.
  intros spg wy psize std hash dump load ls cbrt sl il cwd rd suffix tmp fs ds argv evs f u v mode com ld
    A RD O1 O2 O3 O4 SL RG NE LU SU V PS ST VU DU gen3 gen2 d.
  assert (X : exists a, suplat_new psize (if ld then gen2 else gen3) u com v mode = Ok a /\
    let r := suplat_run std dump a cwd suffix fs ds in o_exn r = None /\
    exists all hs fs0 ws, NoDup all /\ (forall m, In m all <-> if ld then is_hnf2 v m else is_hnf v m) /\ sorted_blocks all /\
      firsts (lat_equiv (map fst (spg u))) [] all hs /\
      emptied (ds d) d fs fs0 /\ after_writes fs0 ws (o_files r) /\ indexed (fun k => exact_suplat std dump mode d v u (suffix k)) hs ws).
  { destruct ld.
    - destruct (C110_suplat_2d std psize dump sl il (map fst (spg u)) u com v mode cwd suffix fs ds SL RG NE LU SU V (written_mode O3) PS ST VU DU) as (a & EA & X).
      exists a. split; [exact EA|]. cbv zeta in X. rewrite <- (suplat_dir_of cwd _ _ _ _ _ _ _ EA) in X. exact X.
    - destruct (C110_suplat std psize dump sl il (map fst (spg u)) u com v mode cwd suffix fs ds SL RG NE LU SU V (written_mode O3) PS ST VU DU) as (a & EA & X).
      exists a. split; [exact EA|]. cbv zeta in X. rewrite <- (suplat_dir_of cwd _ _ _ _ _ _ _ EA) in X. exact X. }
  destruct X as (a & EA & X). exists (suplat_run std dump a cwd suffix fs ds). split; [|exact X].
  clear X. apply C86_suplat_arguments in EA as (_ & EG & EV & EO & EC). subst v mode.
  apply (C102_suplat spg wy psize std hash dump load ls cbrt gen3 gen2 cwd rd suffix tmp argv fs ds evs f u a A RD). split; [exact PS|]. split; [exact O1|]. split; [exact O3|].
  split; [exists ld; split; [exact O2|destruct ld; exact EG]|]. exists com. auto.
Qed.
Print Assumptions C112_suplat.

(** ** runati *)
Theorem C112_supcell : forall std dump load cbrt fuel rnd argv fs ds evs f u a b c m,
  asks "supcell" t_supcell fs ds argv evs f -> from_file load cbrt (Some f) None fs = Ok u -> triple evs "scale" whole (Some (a, b, c)) -> destination evs m ->
  positions u <> [] -> length (positions u) = length (numbers u) -> Forall supported (numbers u) -> (0 < a)%Z -> (0 < b)%Z -> (0 < c)%Z -> (a * b * c < 100000)%Z ->
  exists g r, runati std dump load cbrt fuel rnd argv fs ds = Called (Some (Ok r)) /\
    exact_supercell u (V3 (V3 a 0 0) (V3 0 b 0) (V3 0 0 c))%Z g /\ exact_delivery dump (notice f) f "_SUPC" m g fs r.
Proof.
  intros std dump load cbrt fuel rnd argv fs ds evs f u a b c m A R T D P L S Ha Hb Hc Hl.
  destruct (C111_supcell dump u f a b c m fs P L S Ha Hb Hc Hl (destination_known D)) as (g & r & E & X & DE). exists g, r.
  rewrite (@supcell_runs std dump load cbrt fuel rnd argv fs ds evs f u a b c m A R T D), E. auto.
Qed.
Print Assumptions C112_supcell.
Theorem C112_pcell : forall std dump load cbrt fuel rnd argv fs ds evs f u m,
  asks "pcell" t_pcell fs ds argv evs f -> from_file load cbrt (Some f) None fs = Ok u -> destination evs m ->
  Forall supported (numbers u) -> standardized (cell_of u) (std (cell_of u)) ->
  exists g r, runati std dump load cbrt fuel rnd argv fs ds = Called (Some (Ok r)) /\ exact_primitive std u g /\
    exact_delivery dump (match m with None => "" | Some _ => notice f end) f "_PRIMC" m g fs r.
Proof.
  intros std dump load cbrt fuel rnd argv fs ds evs f u m A R D S ST.
  destruct (C111_pcell std dump u f m fs (destination_known D) S ST) as (g & r & E & H). exists g, r.
  rewrite (@pcell_runs std dump load cbrt fuel rnd argv fs ds evs f u m A R D), E. auto.
Qed.
Print Assumptions C112_pcell.
Theorem C112_perturb : forall std dump load cbrt fuel rnd argv fs ds evs f u r us,
  asks "perturb" t_perturb fs ds argv evs f -> from_file load cbrt (Some f) None fs = Ok u -> single evs "radius" number 0%Qc r ->
  positions u <> [] -> length (positions u) = length (numbers u) -> Forall supported (numbers u) -> SModCell.volume (lattice u) <> 0%Qc ->
  without (fun d : vec Qc * Qc => snd d = 0%Qc) rnd us -> length (positions u) <= length us ->
  exists new g x, shaken u r us new /\ cell_with (lattice u) new g /\
    runati std dump load cbrt fuel rnd argv fs ds = Called (Some (Ok x)) /\ exact_delivery dump (notice f) f "_PURB" (Some "vasp") g fs x.
Proof.
  intros std dump load cbrt fuel rnd argv fs ds evs f u r us A R RA P L S V W LU.
  destruct (C111_perturb dump u f r rnd us fs P L S V W LU) as (new & g & x & SH & CW & E & DE). exists new, g, x.
  rewrite (@perturb_runs std dump load cbrt fuel rnd argv fs ds evs f u r A R RA), E. auto.
Qed.
Print Assumptions C112_perturb.
Theorem C112_atclear : forall std dump load cbrt fuel rnd argv fs ds evs f u cen r ele refined s1 s2,
  asks "atclear" t_atclear fs ds argv evs f -> from_file load cbrt (Some f) None fs = Ok u ->
  required evs "cenele" text cen -> single evs "radius" number 0%Qc r -> required evs "ele" text ele -> switch evs "refined" true refined ->
  positions u <> [] -> length (positions u) = length (numbers u) -> Forall supported (numbers u) -> is_element s1 cen -> is_element s2 ele -> length (positions u) < fuel ->
  exists rest, cleared u s1 r s2 rest /\
    (rest = [] -> runati std dump load cbrt fuel rnd argv fs ds = Called (Some (Raise ValueError))) /\
    (rest <> [] -> exists g, cell_with (lattice u) rest g /\
       ((refined = true -> standardized (cell_of g) (std (cell_of g))) ->
        exists g' x, (if refined then exact_primitive std g g' else g' = g) /\
          runati std dump load cbrt fuel rnd argv fs ds = Called (Some (Ok x)) /\ exact_delivery dump (notice f) f "_ACLR" (Some "vasp") g' fs x)).
Proof.
  intros std dump load cbrt fuel rnd argv fs ds evs f u cen r ele refined s1 s2 A R O1 O2 O3 O4 P L S E1 E2 FU.
  pose proof (@atclear_runs std dump load cbrt fuel rnd argv fs ds evs f u cen r ele refined A R O1 O2 O3 O4) as E.
  destruct (Specie_new_total E1) as (p1 & N1 & Z1). destruct (Specie_new_total E2) as (p2 & N2 & Z2). subst s1 s2.
  destruct (C111_atclear std dump u f cen r ele p1 p2 fuel fs P L S N1 N2 FU) as (rest & CL & H1 & H2). exists rest. split; [exact CL|]. rewrite E. split.
  - intros X. now rewrite (H1 X).
  - intros X. destruct (H2 X) as (g & CW & (x & E3 & D3) & H4). exists g. split; [exact CW|]. intros ST. destruct refined.
    + destruct (H4 (ST eq_refl)) as (g' & x' & EP & E5 & D5). exists g', x'. rewrite E5. auto.
    + exists g, x. rewrite E3. auto.
Qed.
Print Assumptions C112_atclear.

(** Examples: the lines of C102 and C103 about the one-atom cell of C100, with the
    identity and the inversion. *)
Example C112_suplat_ex : asks "suplat" t_suplat s_fs (fun _ => false) w_suplat ev_suplat "B.yaml" /\ from_file c_load (fun q => q) (Some "B.yaml") None s_fs = Ok lop /\
  single ev_suplat "volumn" whole 1%Z 2%Z /\ switch ev_suplat "ld" false false /\ single ev_suplat "outmode" (among ["vasp"; "yaml"]) "yaml" "yaml" /\ optional ev_suplat "comment" text None /\
  set_order first_order /\ rot_group lrots /\ positions lop <> [] /\ length (positions lop) = length (numbers lop) /\ Forall supported (numbers lop) /\
  x_psize (spg_cell lop) = length (snd (spg_cell lop)) /\ standardizes t_std /\ SModCell.volume (lattice lop) <> 0%Qc /\ SShape.distinct_sites (lattice lop) (positions lop).
Proof.
  destruct C103_ex as (A & B & C & D & E & F & _). destruct C75_ex as (G & _ & _ & _ & I & _). do 6 (split; [assumption|]).
  split; [exact G|]. split; [exact (ops_rot_group (proj1 (proj2 lop_symmetries)))|]. split; [discriminate|]. split; [reflexivity|]. split; [repeat constructor; unfold supported; cbn; lia|].
  split; [reflexivity|]. split; [exact I|]. split; [discriminate|]. apply distinct_one.
Qed.
Example C112_supcell_ex : asks "supcell" t_supcell s_fs (fun _ => false) ["--"; "supcell"; "B.yaml"; "-s1"; "2"; "3"] e_sup "B.yaml" /\
  from_file c_load (fun q => q) (Some "B.yaml") None s_fs = Ok lop /\ triple e_sup "scale" whole (Some (1, 2, 3)%Z) /\ destination e_sup None /\
  positions lop <> [] /\ length (positions lop) = length (numbers lop) /\ Forall supported (numbers lop).
Proof.
  destruct C102_supcell_ex as (A & B & C & _). split; [exact A|]. split; [exact s_read|]. split; [exact B|]. split; [exact C|].
  split; [discriminate|]. split; [reflexivity|]. repeat constructor; unfold supported; cbn; lia.
Qed.
