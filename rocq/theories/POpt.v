(** C99: from the command line to the call.  The lines each command accepts, and the arguments
    its body then gets. *)
From Coq Require Import String Ascii.
From Verif Require Import Base BaseQ LBase MText MElement MGeneralCell MHnf MSogen MIO MModCell MCli MOpt SOpt LOpt LOpt2 LOpt3 LOpt4 LOpt5.
Open Scope string_scope.
Open Scope list_scope.
Notation length := List.length.

Theorem C99_suplat : forall there toks c, aba_line there ("suplat" :: toks) = Called c <->
  exists evs f com v ld mode, c = Suplat f com v ld mode /\ spoken t_suplat there toks evs f /\
    optional evs "comment" text com /\ single evs "volumn" whole 1%Z v /\ switch evs "ld" false ld /\ single evs "outmode" (among ["vasp"; "yaml"]) "yaml" mode.
Proof. intros there toks c. exact (@suplat_iff there toks c). Qed.
Print Assumptions C99_suplat.
Theorem C99_ocumaker : forall there toks c, aba_line there ("ocumaker" :: toks) = Called c <->
  exists evs f com ele sp n trs refined mode, c = Ocumaker f com ele sp n trs refined mode /\ spoken t_ocumaker there toks evs f /\
    optional evs "comment" text com /\ optional evs "element" text ele /\ optional evs "speckle" text sp /\ optional evs "nspeckle" whole n /\ every "trs" evs trs /\ switch evs "refined" true refined /\ single evs "outmode" (among ["vasp"; "yaml"]) "vasp" mode.
Proof. intros there toks c. exact (@ocumaker_iff there toks c). Qed.
Print Assumptions C99_ocumaker.
Theorem C99_ocubiter : forall there toks c, aba_line there ("ocubiter" :: toks) = Called c <->
  exists evs f com ele sp n trs refined mode mpr, c = Ocubiter f com ele sp n trs refined mode mpr /\ spoken t_ocubiter there toks evs f /\
    optional evs "comment" text com /\ optional evs "element" text ele /\ optional evs "speckle" text sp /\ optional evs "nspeckle" whole n /\ every "trs" evs trs /\ switch evs "refined" true refined /\ single evs "outmode" (among ["vasp"; "yaml"]) "vasp" mode /\ switch evs "mpr" true mpr.
Proof. intros there toks c. exact (@ocubiter_iff there toks c). Qed.
Print Assumptions C99_ocubiter.
Theorem C99_ocutenter : forall there toks c, aba_line there ("ocutenter" :: toks) = Called c <->
  exists evs f com ele sp n zoom trs refined mode mpr, c = Ocutenter f com ele sp n zoom trs refined mode mpr /\ spoken t_ocutenter there toks evs f /\
    optional evs "comment" text com /\ optional evs "element" text ele /\ couple evs "speckle" text sp /\ couple evs "nspeckle" whole n /\ optional evs "zoom" number zoom /\ every "trs" evs trs /\ switch evs "refined" true refined /\ single evs "outmode" (among ["vasp"; "yaml"]) "vasp" mode /\ switch evs "mpr" true mpr.
Proof. intros there toks c. exact (@ocutenter_iff there toks c). Qed.
Print Assumptions C99_ocutenter.
Theorem C99_ocumakert : forall there toks c, aba_line there ("ocumakert" :: toks) = Called c <->
  exists evs f com ele sp zoom trs refined mode, c = Ocumakert f com ele sp zoom trs refined mode /\ spoken t_ocumakert there toks evs f /\
    optional evs "comment" text com /\ optional evs "element" text ele /\ couple evs "speckle" text sp /\ optional evs "zoom" number zoom /\ every "trs" evs trs /\ switch evs "refined" true refined /\ single evs "outmode" (among ["vasp"; "yaml"]) "vasp" mode.
Proof. intros there toks c. exact (@ocumakert_iff there toks c). Qed.
Print Assumptions C99_ocumakert.
Theorem C99_atclear : forall there toks c, ati_line there ("atclear" :: toks) = Called c <->
  exists evs f cen r ele refined, c = Atclear f cen r ele refined /\ spoken t_atclear there toks evs f /\
    required evs "cenele" text cen /\ single evs "radius" number 0%Qc r /\ required evs "ele" text ele /\ switch evs "refined" true refined.
Proof. intros there toks c. exact (@atclear_iff there toks c). Qed.
Print Assumptions C99_atclear.
Theorem C99_perturb : forall there toks c, ati_line there ("perturb" :: toks) = Called c <->
  exists evs f r, c = Perturb f r /\ spoken t_perturb there toks evs f /\
    single evs "radius" number 0%Qc r.
Proof. intros there toks c. exact (@perturb_iff there toks c). Qed.
Print Assumptions C99_perturb.
Theorem C99_supcell : forall there toks c, ati_line there ("supcell" :: toks) = Called c <->
  exists evs f scale mode, c = Supcell f scale mode /\ spoken t_supcell there toks evs f /\
    triple evs "scale" whole scale /\ single evs "outmode" (among ["vasp"; "yaml"; "stdio"]) "stdio" mode.
Proof. intros there toks c. exact (@supcell_iff there toks c). Qed.
Print Assumptions C99_supcell.
Theorem C99_pcell : forall there toks c, ati_line there ("pcell" :: toks) = Called c <->
  exists evs f mode, c = Pcell f mode /\ spoken t_pcell there toks evs f /\
    single evs "outmode" (among ["vasp"; "yaml"; "stdio"]) "stdio" mode.
Proof. intros there toks c. exact (@pcell_iff there toks c). Qed.
Print Assumptions C99_pcell.

(** The programs call a command only when the first word, or the first after [--], is its name. *)
Theorem C99_runaba_names : forall there argv c, aba_line there argv = Called c <->
  exists name toks, names_command argv name toks /\
    In name ["suplat"; "ocumaker"; "ocubiter"; "ocutenter"; "ocumakert"] /\ aba_line there (name :: toks) = Called c.
Proof.
  intros there argv c. split.
  - intros H. apply group_called in H as (name & toks & cmd & E & I & C). exists name, toks. split; [exact E|].
    cbn in I. repeat (destruct I as [I|I]; [injection I as <- <-; split; [cbn; tauto|exact C]|]). destruct I.
  - intros (name & toks & [-> | ->] & I & C); [exact C|]. apply group_called_iff; [|exact C].
    cbn in I. repeat (destruct I as [<-|I]; [right; right; do 2 eexists; split; [reflexivity|discriminate]|]). destruct I.
Qed.
Print Assumptions C99_runaba_names.
Theorem C99_runati_names : forall there argv c, ati_line there argv = Called c <->
  exists name toks, names_command argv name toks /\
    In name ["atclear"; "perturb"; "supcell"; "pcell"] /\ ati_line there (name :: toks) = Called c.
Proof.
  intros there argv c. split.
  - intros H. apply group_called in H as (name & toks & cmd & E & I & C). exists name, toks. split; [exact E|].
    cbn in I. repeat (destruct I as [I|I]; [injection I as <- <-; split; [cbn; tauto|exact C]|]). destruct I.
  - intros (name & toks & [-> | ->] & I & C); [exact C|]. apply group_called_iff; [|exact C].
    cbn in I. repeat (destruct I as [<-|I]; [right; right; do 2 eexists; split; [reflexivity|discriminate]|]). destruct I.
Qed.
Print Assumptions C99_runati_names.

(** When the help (or the version) is shown instead; every other line is complained about. *)
Theorem C99_help_runaba : forall there argv, aba_line there argv = Shown <-> asks_help runaba_commands argv.
Proof. intros there argv. exact (@aba_help there argv). Qed.
Print Assumptions C99_help_runaba.
Theorem C99_help_runati : forall there argv, ati_line there argv = Shown <-> asks_help runati_commands argv.
Proof. intros there argv. exact (@ati_help there argv). Qed.
Print Assumptions C99_help_runati.

(** A line says one thing only. *)
Theorem C99_unambiguous : forall tb toks e1 e2, In tb [t_suplat; t_ocumaker; t_ocubiter; t_ocutenter; t_ocumakert; t_atclear; t_perturb; t_supcell; t_pcell] ->
  line tb toks e1 -> line tb toks e2 -> e1 = e2.
Proof.
  assert (K : forall ds tb toks e1 e2, table_ok ds tb -> line tb toks e1 -> line tb toks e2 -> e1 = e2).
  { intros ds tb toks e1 e2 T L1 L2. apply (scan_iff T) in L1, L2. congruence. }
  intros tb toks e1 e2 I. cbn in I.
  destruct I as [<-|[<-|[<-|[<-|[<-|[<-|[<-|[<-|[<-|[]]]]]]]]]].
  - exact (K _ _ _ _ _ ok_suplat).
  - exact (K _ _ _ _ _ ok_ocumaker).
  - exact (K _ _ _ _ _ ok_ocubiter).
  - exact (K _ _ _ _ _ ok_ocutenter).
  - exact (K _ _ _ _ _ ok_ocumakert).
  - exact (K _ _ _ _ _ ok_atclear).
  - exact (K _ _ _ _ _ ok_perturb).
  - exact (K _ _ _ _ _ ok_supcell).
  - exact (K _ _ _ _ _ ok_pcell).
Qed.
Print Assumptions C99_unambiguous.

(** The order of the words does not matter beyond the order of what is said about one
    parameter. *)
Theorem C99_order_runaba : forall there name tb t1 t2 e1 e2,
  In (name, tb) [("suplat", t_suplat); ("ocumaker", t_ocumaker); ("ocubiter", t_ocubiter); ("ocutenter", t_ocutenter); ("ocumakert", t_ocumakert)] ->
  line tb t1 e1 -> line tb t2 e2 -> regrouped e1 e2 -> aba_line there (name :: t1) = aba_line there (name :: t2).
Proof.
  intros there name tb t1 t2 e1 e2 I L1 L2 R. cbn in I.
  destruct I as [I|[I|[I|[I|[I|[]]]]]]; injection I as <- <-.
  - exact (suplat_order there R L1 L2).
  - exact (ocumaker_order there R L1 L2).
  - exact (ocubiter_order there R L1 L2).
  - exact (ocutenter_order there R L1 L2).
  - exact (ocumakert_order there R L1 L2).
Qed.
Print Assumptions C99_order_runaba.
Theorem C99_order_runati : forall there name tb t1 t2 e1 e2,
  In (name, tb) [("atclear", t_atclear); ("perturb", t_perturb); ("supcell", t_supcell); ("pcell", t_pcell)] ->
  line tb t1 e1 -> line tb t2 e2 -> regrouped e1 e2 -> ati_line there (name :: t1) = ati_line there (name :: t2).
Proof.
  intros there name tb t1 t2 e1 e2 I L1 L2 R. cbn in I.
  destruct I as [I|[I|[I|[I|[]]]]]; injection I as <- <-.
  - exact (atclear_order there R L1 L2).
  - exact (perturb_order there R L1 L2).
  - exact (supcell_order there R L1 L2).
  - exact (pcell_order there R L1 L2).
Qed.
Print Assumptions C99_order_runati.

(** Only the file is given: the defaults. *)
Theorem C99_defaults : forall there f, plain f -> there f = true ->
  aba_line there ["suplat"; f] = Called (Suplat f None 1 false "yaml") /\
  aba_line there ["ocumaker"; f] = Called (Ocumaker f None None None None [] true "vasp") /\
  aba_line there ["ocubiter"; f] = Called (Ocubiter f None None None None [] true "vasp" true) /\
  aba_line there ["ocutenter"; f] = Called (Ocutenter f None None None None None [] true "vasp" true) /\
  aba_line there ["ocumakert"; f] = Called (Ocumakert f None None None None [] true "vasp") /\
  ati_line there ["atclear"; f] = Usage /\
  ati_line there ["perturb"; f] = Called (Perturb f 0%Qc) /\
  ati_line there ["supcell"; f] = Called (Supcell f None "stdio") /\
  ati_line there ["pcell"; f] = Called (Pcell f "stdio").
Proof.
  intros there f P T.
  repeat split; unfold aba_line, ati_line, group; cbn [group_scan dashed String.eqb pick];
    unfold suplat_cmd, ocumaker_cmd, ocubiter_cmd, ocutenter_cmd, ocumakert_cmd, atclear_cmd, perturb_cmd, supcell_cmd, pcell_cmd, command;
    cbn; destruct (plain_tests P) as (E & D); rewrite ?E, ?D; cbn; unfold input_of; cbn; rewrite ?T; reflexivity.
Qed.
Print Assumptions C99_defaults.

(** An existing file whose name begins with a dash cannot be given except after [--]. *)
Theorem C99_dash_file : forall there f, there f = true -> aba_line there ["suplat"; "--"; f] = Called (Suplat f None 1 false "yaml").
Proof.
  intros there f T. unfold aba_line, group. cbn. unfold suplat_cmd, command. cbn. unfold input_of. cbn. rewrite T. reflexivity.
Qed.
Print Assumptions C99_dash_file.

(** Some accepted lines lack what the body needs: without both species, both numbers, the three
    factors, the command ends with an exception and writes nothing. *)
Theorem C99_incomplete : forall ops wy psize std h dump load ls cbrt gen3 gen2 cwd rd suffix tmp fs ds f com ele sp n zoom trs refined mode mpr,
  sp = None \/ n = None ->
  exists e, aba_body ops wy psize std h dump load ls cbrt gen3 gen2 cwd rd suffix tmp (Ocutenter f com ele sp n zoom trs refined mode mpr) fs ds = mkOut fs ds (Some e).
Proof.
  intros ops wy psize std h dump load ls cbrt gen3 gen2 cwd rd suffix tmp fs ds f com ele sp n zoom trs refined mode mpr H.
  cbn [aba_body]. unfold ternary_app. destruct (settings_of ls f fs) as [d|e]; cbn [bind]; [|eexists; reflexivity].
  destruct (key (d_lattice d)); cbn [bind]; [|eexists; reflexivity]. destruct (key (d_positions d)); cbn [bind]; [|eexists; reflexivity].
  destruct (key (d_numbers d)); cbn [bind]; [|eexists; reflexivity]. destruct (GeneralCell_new _ _ _); cbn [bind]; [|eexists; reflexivity].
  destruct (target _ _); cbn [bind]; [|eexists; reflexivity]. destruct H as [-> | ->]; cbn [unpack bind]; [eexists; reflexivity|].
  destruct (unpack sp); cbn [bind]; eexists; reflexivity.
Qed.
Print Assumptions C99_incomplete.
Theorem C99_incomplete_makert : forall ops wy psize std h dump load ls cbrt gen3 gen2 cwd rd suffix tmp fs ds f com ele zoom trs refined mode,
  exists e, aba_body ops wy psize std h dump load ls cbrt gen3 gen2 cwd rd suffix tmp (Ocumakert f com ele None zoom trs refined mode) fs ds = mkOut fs ds (Some e).
Proof.
  intros ops wy psize std h dump load ls cbrt gen3 gen2 cwd rd suffix tmp fs ds f com ele zoom trs refined mode.
  cbn [aba_body]. unfold ternary_app. destruct (settings_of ls f fs) as [d|e]; cbn [bind]; [|eexists; reflexivity].
  destruct (key (d_lattice d)); cbn [bind]; [|eexists; reflexivity]. destruct (key (d_positions d)); cbn [bind]; [|eexists; reflexivity].
  destruct (key (d_numbers d)); cbn [bind]; [|eexists; reflexivity]. destruct (GeneralCell_new _ _ _); cbn [bind]; [|eexists; reflexivity].
  destruct (target _ _); cbn [bind]; [|eexists; reflexivity]. eexists. reflexivity.
Qed.
Print Assumptions C99_incomplete_makert.
Theorem C99_incomplete_supcell : forall std dump load cbrt fuel rnd f mode fs,
  exists e, ati_body std dump load cbrt fuel rnd (Supcell f None mode) fs = Some (Raise e).
Proof.
  intros std dump load cbrt fuel rnd f mode fs. cbn [ati_body]. destruct (from_file load cbrt (Some f) None fs); cbn [bind unpack]; eexists; reflexivity.
Qed.
Print Assumptions C99_incomplete_supcell.
(** ... although the line is accepted: not every accepted line can be carried out. *)
Theorem C99_complete_refuted : exists there argv c, aba_line there argv = Called c /\
  forall ops wy psize std h dump load ls cbrt gen3 gen2 cwd rd suffix tmp fs ds,
    o_exn (aba_body ops wy psize std h dump load ls cbrt gen3 gen2 cwd rd suffix tmp c fs ds) <> None.
Proof.
  exists (fun _ => true), ["ocutenter"; "NaCl.yaml"; "-n"; "1"; "1"]. eexists. split; [vm_compute; reflexivity|].
  intros ops wy psize std h dump load ls cbrt gen3 gen2 cwd rd suffix tmp fs ds.
  match goal with |- o_exn (aba_body _ _ _ _ _ _ _ _ _ _ _ _ _ _ _ (Ocutenter ?f ?com ?ele None ?n ?zoom ?trs ?ref ?mode ?mpr) _ _) <> _ =>
    destruct (C99_incomplete ops wy psize std h dump load ls cbrt gen3 gen2 cwd rd suffix tmp fs ds f com ele None n zoom trs ref mode mpr (or_introl eq_refl)) as (e & ->) end.
  discriminate.
Qed.
Print Assumptions C99_complete_refuted.

(** One line in several spellings. *)
Example C99_ex : let c := Ocubiter "POSCAR" None (Some "Cu") (Some "Zn") (Some 3%Z) [("Zn", scale10 25 (-1)); ("Cu", scale10 2 0)] false "yaml" false in
  aba_line (fun p => String.eqb p "POSCAR")
    ["ocubiter"; "POSCAR"; "--element"; "Cu"; "--speckle"; "Zn"; "-n"; "3"; "-r"; "Zn"; "2.5"; "-r"; "Cu"; "2"; "--no-refined"; "--outmode=yaml"; "-N"] = Called c /\
  aba_line (fun p => String.eqb p "POSCAR")
    ["ocubiter"; "-SNn3"; "-oyaml"; "-rZn"; "2.5"; "-eAg"; "POSCAR"; "--no-refined"; "--dist-restrict=Cu"; "2"; "-eCu"; "-sZn"] = Called c /\
  aba_line (fun p => String.eqb p "POSCAR") ["ocubiter"; "-n"; "3.0"; "POSCAR"] = Usage /\
  aba_line (fun p => String.eqb p "POSCAR") ["ocubiter"; "-o"; "VASP"; "POSCAR"] = Usage /\
  aba_line (fun p => String.eqb p "POSCAR") ["ocutenter"; "-c"; "x"; "POSCAR"] = Usage /\
  aba_line (fun p => String.eqb p "POSCAR") ["ocubiter"; "POSCAR"; "POSCAR"] = Usage /\
  aba_line (fun p => String.eqb p "POSCAR") ["ocubiter"; "CONTCAR"] = Usage /\
  aba_line (fun p => String.eqb p "POSCAR") ["ocubiter"; "--help"] = Shown.
Proof. cbv zeta. repeat split. Qed.
Example C99_order_ex : exists e1 e2, line t_ocubiter ["POSCAR"; "-e"; "Cu"; "-n3"] e1 /\ line t_ocubiter ["--number-speckle=3"; "POSCAR"; "-eCu"] e2 /\ regrouped e1 e2.
Proof.
  do 2 eexists. split; [apply (scan_iff ok_ocubiter); reflexivity|]. split; [apply (scan_iff ok_ocubiter); reflexivity|].
  split; [|reflexivity]. intros d. cbn [List.app filter about]. destruct (String.eqb_spec "element" d) as [<-|]; [reflexivity|].
  destruct (String.eqb "nspeckle" d); reflexivity.
Qed.
Example C99_help_ex : aba_line (fun _ => false) [] = Shown /\ aba_line (fun _ => false) ["--version"; "--help"; "nothing"; "-x"] = Shown /\
  aba_line (fun _ => false) ["--version"; "-x"] = Usage /\ aba_line (fun _ => false) ["--"] = Usage /\
  ati_line (fun _ => false) ["--"; "pcell"; "--outmode=paper"; "--help"] = Shown /\ ati_line (fun _ => false) ["pcell"; "-o"; "--help"] = Usage /\
  ati_line (fun _ => true) ["--"; "pcell"; "POSCAR"] = Called (Pcell "POSCAR" "stdio").
Proof. repeat split. Qed.
