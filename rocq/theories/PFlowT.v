(** C101: a ternary session at the shell.  suplat writes one YAML file for each class of
    superlattices, ocutenter run on such a file writes one file for each class of decorations
    with two species; every derivative structure of the parent with these two species is in some
    file, and nothing else is. *)
From Coq Require Import String Permutation.
From Verif Require Import SIO MIO SCliRead Base LBase BaseQ LQ MElement SElement LElement SLattice SGeneralCell LGeneralCell MGeneralCell SSym LSym SOcc SSubst SEnum SModCell SShape LShape SRobust LRobust MHnf LHnf LSuper LDup
  MComb MText MSogen LFrame SDeriv LDeriv LDeriv2 LDeriv3 SOnce LOnce LShape2 SFlow LFlow LFlow2 LFlow3 LFlow4 LFlow5 SCli MCli SCliApp SCliOne LCli LCli7 LCli8 LCli9 LCli6 LCli10 LCrystal LFrac LCodec LSymDec LMisc LPrim LModCell4 LFilter PHnf PShape PCli PSogen PRobust PCli2 PCli4 PSuper PDeriv POnce PFlow MOpt SOpt LOpt LOpt2 LOpt3 LOpt4 POpt PSession SFlowT LFlowT.
Open Scope list_scope.
Open Scope nat_scope.
Notation length := List.length.

Theorem C101_flow : forall std psize dump load cbrt sl il u ops com v cwd suffix fs ds spg wy hash N tmp v1 n1 v2 n2,
  set_order sl -> from_constructor u -> Forall supported (numbers u) -> volume (lattice u) <> 0%Qc -> symmetries_of ops u -> (0 < v < 2000)%Z ->
  psize (spg_cell u) = length (snd (spg_cell u)) -> standardizes std -> (forall d, load (dump d) = Ok d) ->
  enough_suffixes (lat_equiv (map fst ops)) (fun m => Z.abs (zdet m) = v) suffix ->
  supported v1 -> supported v2 -> v1 <> v2 -> ~ In v1 (numbers u) -> ~ In v2 (numbers u) -> fresh_names N tmp ->
  (forall h g, is_hnf v h -> shaped_super std (map fst ops) u h g -> exists gops, oracles_work2 spg hash v1 n1 v2 n2 g gops) ->
  exists a, suplat_new psize (hnfs_from_n sl il (map fst ops)) u com v "yaml" = Ok a /\
    let d := (cwd ++ "/SUPLAT_" ++ s_comment a)%string in let fs1 := o_files (suplat_run std dump a cwd suffix fs ds) in
    exists fs0 hs ps, emptied (ds d) d fs fs0 /\ NoDup ps /\ (forall p, ~ In p ps -> fs1 p = fs0 p) /\
      transversal (lat_equiv (map fst ops)) (fun m => Z.abs (zdet m) = v) hs /\
      Forall2 (fun p h => exists g c doc, shaped_super std (map fst ops) u h g /\ fs1 p = Some (dump doc) /\ document_cell doc = Ok c /\ rounded g c /\
        forall a2 cwd2 rd ds2, plain_trun a2 c v1 v2 -> ds2 (cwd2 ++ "/STRUCTURES_" ++ t_comment a2 ++ "_" ++ rd)%string = false ->
          lists_derivatives2 load cbrt N (t_outmode a2) (map fst ops) u g c h v1 n1 v2 n2 fs1
            (o_files (tenter_run spg wy psize std hash dump a2 (Z.of_nat n1) (Z.of_nat n2) cwd2 rd tmp fs1 ds2))) ps hs.
Proof.
  intros std psize dump load cbrt sl il u ops com v cwd suffix fs ds spg wy hash N tmp v1 n1 v2 n2 SL FU SU VU SO V PS ST LD ES S1 S2 N12 N1 N2 FR RD.
  pose proof (ops_rot_group (proj1 (proj2 SO))) as RG. assert (V0 : (0 < v)%Z) by lia. assert (V1 : (0 < v < 100000)%Z) by lia.
  destruct (proj1 (C34_one_per_class sl il (map fst ops) u v SL RG) V) as (all & out & _ & E & _ & T).
  unfold suplat_new, is_primitive. rewrite PS, Nat.eqb_refl, E. cbn [bind]. eexists. split; [reflexivity|]. cbv zeta.
  set (a := mkSapp out _ v "yaml").
  destruct (@flow2 std dump load cbrt ops u v a cwd suffix fs ds spg wy psize hash N tmp v1 v2 n1 n2 FU SU V1 ST VU SO
    (@gen3_made sl il (map fst ops) u v out SL V0 E) eq_refl) as (fs0 & ps & EM & ND & OT & F); auto.
  { intros i j H. apply (ES (map sl_H out) T). now rewrite map_length. }
  exists fs0, (map sl_H out), ps. split; [exact EM|]. split; [exact ND|]. split; [exact OT|]. split; [exact T|]. exact F.
Qed.
Print Assumptions C101_flow.

(** runaba ocutenter --comment X --element E --speckle S1 S2 -n N1 N2 --no-refined -N --outmode MODE -- FILE *)
Definition ocutenter_words (x se s1 s2 sn1 sn2 mode f : string) : list string :=
  ["ocutenter"; "--comment"; x; "--element"; se; "--speckle"; s1; s2; "-n"; sn1; sn2; "--no-refined"; "-N"; "--outmode"; mode; "--"; f]%string.
Lemma ocutenter_line there x se s1 s2 sn1 sn2 n1 n2 mode f : there f = true -> parse_int sn1 = Ok n1 -> parse_int sn2 = Ok n2 -> mode = "vasp"%string \/ mode = "yaml"%string ->
  aba_line there (ocutenter_words x se s1 s2 sn1 sn2 mode f) = Called (Ocutenter f (Some x) (Some se) (Some (s1, s2)) (Some (n1, n2)) None [] false mode false).
Proof.
  intros T P1 P2 M. unfold aba_line, group, ocutenter_words. cbn [group_scan dashed pick]. cbn. unfold ocutenter_cmd, command. cbn. unfold input_of. cbn. rewrite T.
  unfold one, two. cbn. unfold as_int. rewrite P1, P2. destruct M as [-> | ->]; reflexivity.
Qed.

Theorem C101_session : forall spg wy psize std hash dump load ls cbrt sl il cwd rd rd2 suffix suffix2 tmp tmp2 N fs ds f u sv v x se t1 t2 sn1 sn2 mode ele v1 n1 v2 n2,
  from_file load cbrt (Some f) None fs = Ok u ->
  set_order sl -> from_constructor u -> Forall supported (numbers u) -> volume (lattice u) <> 0%Qc -> symmetries_of (spg u) u ->
  parse_int sv = Ok v -> (0 < v < 2000)%Z -> psize (spg_cell u) = length (snd (spg_cell u)) -> standardizes std -> same_yaml dump load ls ->
  enough_suffixes (lat_equiv (map fst (spg u))) (fun m => Z.abs (zdet m) = v) suffix ->
  is_element ele se -> is_element v1 t1 -> is_element v2 t2 -> parse_int sn1 = Ok (Z.of_nat n1) -> parse_int sn2 = Ok (Z.of_nat n2) ->
  v1 <> v2 -> ~ In v1 (numbers u) -> ~ In v2 (numbers u) -> fresh_names N tmp2 -> mode = "vasp"%string \/ mode = "yaml"%string ->
  (forall h g, is_hnf v h -> shaped_super std (map fst (spg u)) u h g -> exists gops, oracles_work2 spg hash v1 n1 v2 n2 g gops) ->
  ds (cwd ++ "/STRUCTURES_" ++ x ++ "_" ++ rd2)%string = false ->
  let gen3 := fun w => hnfs_from_n sl il (map fst (spg w)) w in let gen2 := fun w => hnfs_from_n_2d sl il (map fst (spg w)) w in
  exists out1, runaba spg wy psize std hash dump load ls cbrt gen3 gen2 cwd rd suffix tmp (suplat_words sv "yaml" f) fs ds = Called out1 /\
    let fs1 := o_files out1 in let ds1 := o_dirs out1 in
    exists fs0 hs ps, emptied (ds (cwd ++ "/SUPLAT_default"))%string (cwd ++ "/SUPLAT_default")%string fs fs0 /\
      NoDup ps /\ (forall p, ~ In p ps -> fs1 p = fs0 p) /\
      transversal (lat_equiv (map fst (spg u))) (fun m => Z.abs (zdet m) = v) hs /\
      Forall2 (fun p h => exists g c doc, shaped_super std (map fst (spg u)) u h g /\ fs1 p = Some (dump doc) /\ document_cell doc = Ok c /\ rounded g c /\
        exists out2, runaba spg wy psize std hash dump load ls cbrt gen3 gen2 cwd rd2 suffix2 tmp2 (ocutenter_words x se t1 t2 sn1 sn2 mode p) fs1 ds1 = Called out2 /\
          lists_derivatives2 load cbrt N mode (map fst (spg u)) u g c h v1 n1 v2 n2 fs1 (o_files out2)) ps hs.
Proof.
  intros spg wy psize std hash dump load ls cbrt sl il cwd rd rd2 suffix suffix2 tmp tmp2 N fs ds f u sv v x se t1 t2 sn1 sn2 mode ele v1 n1 v2 n2
    RD SL FU SU VU SO PV V PS ST SY ES IE I1 I2 PN1 PN2 N12 N1 N2 FR M OR ND gen3 gen2.
  assert (S1 : supported v1) by (apply supported_iff; eauto). assert (S2 : supported v2) by (apply supported_iff; eauto).
  destruct (C101_flow std psize dump load cbrt sl il u (spg u) None v cwd suffix fs ds spg wy hash N tmp2 v1 n1 v2 n2
    SL FU SU VU SO V PS ST (fun d => proj1 (SY d)) ES S1 S2 N12 N1 N2 FR OR) as (a & EA & fs0 & hs & ps & EM & NDP & OT & TR & F).
  assert (EC : s_comment a = "default"%string).
  { revert EA. unfold suplat_new. destruct (is_primitive psize u); [|discriminate]. destruct (hnfs_from_n sl il (map fst (spg u)) u v); cbn [bind]; [|discriminate]. now intros [= <-]. }
  exists (suplat_run std dump a cwd suffix fs ds). split.
  { unfold runaba. rewrite (suplat_line _ sv v "yaml" f); auto.
    - cbn [aba_body]. rewrite RD. cbn [bind]. unfold gen3. unfold suplat_new in EA |- *. destruct (is_primitive psize u); [|discriminate].
      destruct (hnfs_from_n sl il (map fst (spg u)) u v); cbn [bind] in EA |- *; [|discriminate]. injection EA as <-. reflexivity.
    - apply read_exists in RD. now destruct (fs f). }
  cbv zeta. exists fs0, hs, ps. rewrite EC in EM. split; [exact EM|]. split; [exact NDP|]. split; [exact OT|]. split; [exact TR|].
  assert (DS : o_dirs (suplat_run std dump a cwd suffix fs ds) (cwd ++ "/STRUCTURES_" ++ x ++ "_" ++ rd2)%string = false).
  { unfold suplat_run. destruct (emit _ _ _ _ _) as [[? ?] ?]. cbn [o_dirs]. unfold mkdir. rewrite ND, orb_false_r. apply String.eqb_neq. unfold slash. intros H.
    apply app_same in H. discriminate H. }
  eapply LBase.Forall2_imp; [|exact F]. intros p h (g & c & doc & G & RF & DC & RO & W). exists g, c, doc. split; [exact G|]. split; [exact RF|]. split; [exact DC|]. split; [exact RO|].
  destruct (Specie_new_total IE) as (s0 & E0 & Z0). destruct (Specie_new_total I1) as (s1 & E1 & Z1). destruct (Specie_new_total I2) as (s2 & E2 & Z2).
  destruct (proj1 (from_num_spec ele) se IE) as (s3 & E3 & _ & Z3).
  set (a2 := mkTapp c x ele (count_target (y_numbers doc) ele) t1 t2 None false mode false).
  exists (tenter_run spg wy psize std hash dump a2 (Z.of_nat n1) (Z.of_nat n2) cwd rd2 tmp2 (o_files (suplat_run std dump a cwd suffix fs ds)) (o_dirs (suplat_run std dump a cwd suffix fs ds))). split.
  - unfold runaba. rewrite (ocutenter_line _ x se t1 t2 sn1 sn2 (Z.of_nat n1) (Z.of_nat n2) mode p); auto.
    + cbn [aba_body]. unfold settings_of. rewrite RF, (proj2 (SY doc)). cbn [bind unpack]. unfold ternary_app. cbn [d_lattice d_positions d_numbers key bind zoom_or comment_or_default d_zoom d_comment unpack fst snd].
      unfold document_cell in DC. rewrite DC. cbn [bind]. unfold target. rewrite E0. cbn [bind]. unfold Tapp_new. rewrite DC. cbn [bind]. unfold target. rewrite E0. cbn [bind]. rewrite Z0, E3. cbn [bind]. rewrite Z3. reflexivity.
    + now rewrite RF.
  - apply (W a2); [|exact DS]. split; [reflexivity|]. split; [reflexivity|]. split; [reflexivity|]. split; [reflexivity|]. split; [exists s1|exists s2]; auto.
Qed.
Print Assumptions C101_session.

(** ** Example: the session of the parent of C94, doubled; one half becomes carbon, the other
    nitrogen. *)
Definition q_ls (t : string) : res sdoc :=
  do d <- c_load t; Ok (mkSdoc (Some (y_zoom d)) (Some (y_comment d)) (Some (y_lattice d)) (Some (y_positions d)) (Some (y_numbers d))).
Definition q_run (rd : string) := runaba both x_wy x_psize t_std poly c_dump c_load q_ls (fun q => q) s_gen3 s_gen2 "/w" rd t_suffix (first_unused 100).
Definition q_session : option (list Z) :=
  match q_run "00000" (suplat_words "2" "yaml" "B.yaml") s_fs (fun _ => false) with
  | Called o1 =>
    match q_run "ABCDE" (ocutenter_words "y" "B" "C" "N" "1" "1" "yaml" "/w/SUPLAT_default/SUPLAT_2_B.yaml") (o_files o1) (o_dirs o1) with
    | Called o2 => match from_file c_load (fun q => q) (Some "/w/STRUCTURES_y_ABCDE/STRUCTURE_A0B1C1_.yaml"%string) None (o_files o2) with
                   | Ok g => Some (numbers g) | Raise _ => None end
    | _ => None
    end
  | _ => None
  end.
Example C101_ex_run : q_session = Some [6; 7]%Z.
Proof. vm_compute. reflexivity. Qed.
Lemma saved_all2 h g : is_hnf 2 h -> shaped_super t_std (map fst (both lop)) lop h g -> oracles_work2 both poly 6 1 7 1 g (both g).
Proof.
  intros H G. pose proof (fine_numbers g (saved_fine h g H G)) as NG. split; [exact (proj1 (proj2 (saved_all h g H G)))|]. rewrite NG. split.
  - apply two_fold_poly. repeat constructor; lia.
  - intros x T. pose proof T as (? & ? & _ & _ & _ & L & _). destruct x as [|a [|b [|]]]; try discriminate L.
    destruct (two_choice T (i := 0) (a := 5%Z) (b := a) eq_refl eq_refl) as [[<-|[<-|[]]]| ->]; (eexists; split; [now left|discriminate]).
Qed.
Example C101_ex : from_file c_load (fun q => q) (Some "B.yaml"%string) None s_fs = Ok lop /\ from_constructor lop /\ symmetries_of (both lop) lop /\
  same_yaml c_dump c_load q_ls /\ enough_suffixes (lat_equiv (map fst (both lop))) (fun m => Z.abs (zdet m) = 2%Z) t_suffix /\
  is_element 6 "C" /\ is_element 7 "N" /\ parse_int "1" = Ok (Z.of_nat 1) /\ ~ In 6%Z (numbers lop) /\ ~ In 7%Z (numbers lop) /\ fresh_names 100 (first_unused 100) /\
  (forall h g, is_hnf 2 h -> shaped_super t_std (map fst (both lop)) lop h g -> exists gops, oracles_work2 both poly 6 1 7 1 g gops) /\
  derivative_with2 lop layers_m 6 1 7 1 (slabs 6 7).
Proof.
  split; [exact s_read|]. split; [exact lop_made|]. split; [exact lop_symmetries|].
  split; [intros d; split; [apply c_load_dump|]; unfold q_ls; now rewrite c_load_dump|]. split; [now apply lop_suffixes|].
  split; [apply spec_pairs_iff; cbn; tauto|]. split; [apply spec_pairs_iff; cbn; tauto|]. split; [reflexivity|].
  split; [intros [?|[]]; discriminate|]. split; [intros [?|[]]; discriminate|]. split; [apply first_unused_fresh|].
  split; [intros h g H G; exists (both g); now apply (saved_all2 h)|].
  split; [apply slabs_derivative; cbn; auto|]. split; [exists [v0]|eexists [_]]; (split; [reflexivity|]); [apply slabs_even|apply slabs_odd]; discriminate.
Qed.
