(** C100: a session at the shell, from the words typed to the files written. *)
From Coq Require Import String Permutation.
From Verif Require Import SIO MIO SCliRead Base LBase BaseQ LQ MElement SElement LElement SLattice SGeneralCell LGeneralCell MGeneralCell SSym LSym SOcc SSubst SEnum SModCell SShape LShape SRobust LRobust MHnf LHnf LSuper LDup
  MComb MText MSogen LFrame SDeriv LDeriv LDeriv2 LDeriv3 SOnce LOnce LShape2 SFlow LFlow LFlow2 LFlow3 LFlow4 LFlow5 SCli MCli SCliApp SCliOne LCli LCli7 LCli8 LCli9 LCli10 LCrystal LFrac LCodec LSymDec LMisc LPrim LModCell4 LFilter PHnf PShape PCli PSogen PRobust PCli2 PCli4 PSuper PDeriv POnce PFlow MOpt SOpt LOpt LOpt2 LOpt3 LOpt4 POpt.
Open Scope list_scope.
Open Scope nat_scope.
Notation length := List.length.

(** runaba suplat -v V -o MODE -- FILE *)
Definition suplat_words (sv mode f : string) : list string := ["suplat"; "-v"; sv; "-o"; mode; "--"; f]%string.
(** runaba ocubiter -c X -e E -s S -n N --no-refined -N -- FILE *)
Definition ocubiter_words (x se ss sn f : string) : list string :=
  ["ocubiter"; "-c"; x; "-e"; se; "-s"; ss; "-n"; sn; "--no-refined"; "-N"; "--"; f]%string.

Lemma suplat_line there sv v mode f : there f = true -> parse_int sv = Ok v -> mode = "vasp"%string \/ mode = "yaml"%string ->
  aba_line there (suplat_words sv mode f) = Called (Suplat f None v false mode).
Proof.
  intros T P M. unfold aba_line, group, suplat_words. cbn [group_scan dashed pick]. cbn. unfold suplat_cmd, command. cbn. unfold input_of. cbn. rewrite T.
  unfold one. cbn. unfold as_int. rewrite P. destruct M as [-> | ->]; reflexivity.
Qed.
Lemma ocubiter_line there x se ss sn n f : there f = true -> parse_int sn = Ok n ->
  aba_line there (ocubiter_words x se ss sn f) = Called (Ocubiter f (Some x) (Some se) (Some ss) (Some n) [] false "vasp" false).
Proof.
  intros T P. unfold aba_line, group, ocubiter_words. cbn [group_scan dashed pick]. cbn. unfold ocubiter_cmd, command. cbn. unfold input_of. cbn. rewrite T.
  unfold one, maybe. cbn. unfold as_int. rewrite P. reflexivity.
Qed.
Lemma app_same (a b c : string) : (a ++ b)%string = (a ++ c)%string -> b = c.
Proof. induction a as [|x r IH]; cbn; auto. intros [= H]. auto. Qed.
Lemma read_exists load cbrt p fs c : from_file load cbrt (Some p) None fs = Ok c -> fs p <> None.
Proof. unfold from_file. destruct (choose p None); [|discriminate]. destruct (fs p); [discriminate|discriminate]. Qed.

Theorem C100_session : forall spg wy psize std hash dump load ls cbrt sl il cwd rd rd2 suffix suffix2 tmp tmp2 len fs ds f u sv v mode x se ss sn ele sp n,
  from_file load cbrt (Some f) None fs = Ok u ->
  set_order sl -> from_constructor u -> Forall supported (numbers u) -> some_atom (numbers u) -> volume (lattice u) <> 0%Qc -> symmetries_of (spg u) u ->
  parse_int sv = Ok v -> (0 < v < 2000)%Z -> mode = "vasp"%string \/ mode = "yaml"%string -> mode = "yaml"%string \/ ~ In 0%Z (numbers u) ->
  psize (spg_cell u) = length (snd (spg_cell u)) -> standardizes std -> (forall d, load (dump d) = Ok d) ->
  enough_suffixes (lat_equiv (map fst (spg u))) (fun m => Z.abs (zdet m) = v) suffix ->
  is_element ele se -> is_element sp ss -> parse_int sn = Ok (Z.of_nat n) -> ele <> sp -> (forall k, String.length (suffix2 k) = len) ->
  (forall h g, is_hnf v h -> shaped_super std (map fst (spg u)) u h g -> exists gops, oracles_work spg hash suffix2 ele sp n g gops) ->
  x <> ""%string -> ds (cwd ++ "/STRUCTURES_" ++ x ++ "_" ++ rd2)%string = false ->
  let gen3 := fun w => hnfs_from_n sl il (map fst (spg w)) w in let gen2 := fun w => hnfs_from_n_2d sl il (map fst (spg w)) w in
  exists out1, runaba spg wy psize std hash dump load ls cbrt gen3 gen2 cwd rd suffix tmp (suplat_words sv mode f) fs ds = Called out1 /\
    let fs1 := o_files out1 in let ds1 := o_dirs out1 in
    exists fs0 hs ps, emptied (ds (cwd ++ "/SUPLAT_default"))%string (cwd ++ "/SUPLAT_default")%string fs fs0 /\
      NoDup ps /\ (forall p, ~ In p ps -> fs1 p = fs0 p) /\
      transversal (lat_equiv (map fst (spg u))) (fun m => Z.abs (zdet m) = v) hs /\
      Forall2 (fun p h => exists g c, shaped_super std (map fst (spg u)) u h g /\ from_file load cbrt (Some p) None fs1 = Ok c /\ rounded g c /\
        exists out2, runaba spg wy psize std hash dump load ls cbrt gen3 gen2 cwd rd2 suffix2 tmp2 (ocubiter_words x se ss sn p) fs1 ds1 = Called out2 /\
          lists_derivatives load cbrt (map fst (spg u)) u g c h ele sp n fs1 (o_files out2)) ps hs.
Proof.
  intros spg wy psize std hash dump load ls cbrt sl il cwd rd rd2 suffix suffix2 tmp tmp2 len fs ds f u sv v mode x se ss sn ele sp n
    RD SL FU SU AU VU SO PV V M NV PS ST LD ES IE IS PN NS LS OR NX ND gen3 gen2.
  assert (SS : supported sp) by (apply supported_iff; eauto).
  destruct (C94_flow std psize dump load cbrt sl il u (spg u) None v mode cwd suffix fs ds spg wy hash suffix2 len ele sp n
    SL FU SU AU VU SO V M NV PS ST LD ES SS NS LS OR) as (a & EA & fs0 & hs & ps & EM & NDP & OT & TR & F).
  assert (EC : s_comment a = "default"%string).
  { revert EA. unfold suplat_new. destruct (is_primitive psize u); [|discriminate]. destruct (hnfs_from_n sl il (map fst (spg u)) u v); cbn [bind]; [|discriminate]. now intros [= <-]. }
  exists (suplat_run std dump a cwd suffix fs ds). split.
  { unfold runaba. rewrite (suplat_line _ sv v mode f); auto.
    - cbn [aba_body]. rewrite RD. cbn [bind]. unfold gen3. unfold suplat_new in EA |- *. destruct (is_primitive psize u); [|discriminate].
      destruct (hnfs_from_n sl il (map fst (spg u)) u v); cbn [bind] in EA |- *; [|discriminate]. injection EA as <-. reflexivity.
    - apply read_exists in RD. now destruct (fs f). }
  cbv zeta. exists fs0, hs, ps. rewrite EC in EM. split; [exact EM|]. split; [exact NDP|]. split; [exact OT|]. split; [exact TR|].
  assert (DS : o_dirs (suplat_run std dump a cwd suffix fs ds) (cwd ++ "/STRUCTURES_" ++ x ++ "_" ++ rd2)%string = false).
  { unfold suplat_run. destruct (emit _ _ _ _ _) as [[? ?] ?]. cbn [o_dirs]. unfold mkdir. rewrite ND, orb_false_r. apply String.eqb_neq. unfold slash. intros H.
    apply app_same in H. discriminate H. }
  eapply LBase.Forall2_imp; [|exact F]. intros p h (g & c & G & RF & RO & W). exists g, c. split; [exact G|]. split; [exact RF|]. split; [exact RO|].
  destruct (Specie_new_total IE) as (s1 & E1 & Z1). destruct (Specie_new_total IS) as (s2 & E2 & Z2).
  destruct (proj1 (from_num_spec ele) se IE) as (s3 & E3 & _ & Z3).
  set (a2 := mkApp c x ele sp (Z.of_nat n) None false "vasp" false).
  exists (biter_run spg wy psize std hash dump a2 cwd rd2 suffix2 (o_files (suplat_run std dump a cwd suffix fs ds)) (o_dirs (suplat_run std dump a cwd suffix fs ds))). split.
  - unfold runaba. rewrite (ocubiter_line _ x se ss sn (Z.of_nat n) p); auto.
    + cbn [aba_body]. rewrite RF. cbn [bind]. unfold biter_new, App_new, comment_or, target. apply String.eqb_neq in NX. rewrite NX. cbn [bind]. rewrite E1. cbn [bind]. rewrite E2. cbn [bind].
      rewrite Z1, E3. cbn [bind]. rewrite Z2, Z3. reflexivity.
    + apply read_exists in RF. now destruct (o_files _ p).
  - apply W; [|exact DS]. repeat split. now left.
Qed.
Print Assumptions C100_session.

(** The same for planar superlattices: runaba suplat -L -v V -o MODE -- FILE *)
Definition plane_words (sv mode f : string) : list string := ["suplat"; "-L"; "-v"; sv; "-o"; mode; "--"; f]%string.
Lemma plane_line there sv v mode f : there f = true -> parse_int sv = Ok v -> mode = "vasp"%string \/ mode = "yaml"%string ->
  aba_line there (plane_words sv mode f) = Called (Suplat f None v true mode).
Proof.
  intros T P M. unfold aba_line, group, plane_words. cbn [group_scan dashed pick]. cbn. unfold suplat_cmd, command. cbn. unfold input_of. cbn. rewrite T.
  unfold one. cbn. unfold as_int. rewrite P. destruct M as [-> | ->]; reflexivity.
Qed.
Theorem C100_session_plane : forall spg wy psize std hash dump load ls cbrt sl il cwd rd rd2 suffix suffix2 tmp tmp2 len fs ds f u sv v mode x se ss sn ele sp n,
  from_file load cbrt (Some f) None fs = Ok u ->
  set_order sl -> from_constructor u -> Forall supported (numbers u) -> some_atom (numbers u) -> volume (lattice u) <> 0%Qc -> symmetries_of (spg u) u ->
  parse_int sv = Ok v -> (0 < v < 2000)%Z -> mode = "vasp"%string \/ mode = "yaml"%string -> mode = "yaml"%string \/ ~ In 0%Z (numbers u) ->
  psize (spg_cell u) = length (snd (spg_cell u)) -> standardizes std -> (forall d, load (dump d) = Ok d) ->
  enough_suffixes (lat_equiv (map fst (spg u))) (fun m => in_plane m /\ Z.abs (zdet m) = v) suffix ->
  is_element ele se -> is_element sp ss -> parse_int sn = Ok (Z.of_nat n) -> ele <> sp -> (forall k, String.length (suffix2 k) = len) ->
  (forall h g, is_hnf v h -> shaped_super std (map fst (spg u)) u h g -> exists gops, oracles_work spg hash suffix2 ele sp n g gops) ->
  x <> ""%string -> ds (cwd ++ "/STRUCTURES_" ++ x ++ "_" ++ rd2)%string = false ->
  let gen3 := fun w => hnfs_from_n sl il (map fst (spg w)) w in let gen2 := fun w => hnfs_from_n_2d sl il (map fst (spg w)) w in
  exists out1, runaba spg wy psize std hash dump load ls cbrt gen3 gen2 cwd rd suffix tmp (plane_words sv mode f) fs ds = Called out1 /\
    let fs1 := o_files out1 in let ds1 := o_dirs out1 in
    exists fs0 hs ps, emptied (ds (cwd ++ "/SUPLAT_default"))%string (cwd ++ "/SUPLAT_default")%string fs fs0 /\
      NoDup ps /\ (forall p, ~ In p ps -> fs1 p = fs0 p) /\
      transversal (lat_equiv (map fst (spg u))) (fun m => in_plane m /\ Z.abs (zdet m) = v) hs /\
      Forall2 (fun p h => exists g c, shaped_super std (map fst (spg u)) u h g /\ from_file load cbrt (Some p) None fs1 = Ok c /\ rounded g c /\
        exists out2, runaba spg wy psize std hash dump load ls cbrt gen3 gen2 cwd rd2 suffix2 tmp2 (ocubiter_words x se ss sn p) fs1 ds1 = Called out2 /\
          lists_derivatives load cbrt (map fst (spg u)) u g c h ele sp n fs1 (o_files out2)) ps hs.
Proof.
  intros spg wy psize std hash dump load ls cbrt sl il cwd rd rd2 suffix suffix2 tmp tmp2 len fs ds f u sv v mode x se ss sn ele sp n
    RD SL FU SU AU VU SO PV V M NV PS ST LD ES IE IS PN NS LS OR NX ND gen3 gen2.
  assert (SS : supported sp) by (apply supported_iff; eauto).
  destruct (C94_flow_plane std psize dump load cbrt sl il u (spg u) None v mode cwd suffix fs ds spg wy hash suffix2 len ele sp n
    SL FU SU AU VU SO V M NV PS ST LD ES SS NS LS OR) as (a & EA & fs0 & hs & ps & EM & NDP & OT & TR & F).
  assert (EC : s_comment a = "default"%string).
  { revert EA. unfold suplat_new. destruct (is_primitive psize u); [|discriminate]. destruct (hnfs_from_n_2d sl il (map fst (spg u)) u v); cbn [bind]; [|discriminate]. now intros [= <-]. }
  exists (suplat_run std dump a cwd suffix fs ds). split.
  { unfold runaba. rewrite (plane_line _ sv v mode f); auto.
    - cbn [aba_body]. rewrite RD. cbn [bind]. unfold gen2. unfold suplat_new in EA |- *. destruct (is_primitive psize u); [|discriminate].
      destruct (hnfs_from_n_2d sl il (map fst (spg u)) u v); cbn [bind] in EA |- *; [|discriminate]. injection EA as <-. reflexivity.
    - apply read_exists in RD. now destruct (fs f). }
  cbv zeta. exists fs0, hs, ps. rewrite EC in EM. split; [exact EM|]. split; [exact NDP|]. split; [exact OT|]. split; [exact TR|].
  assert (DS : o_dirs (suplat_run std dump a cwd suffix fs ds) (cwd ++ "/STRUCTURES_" ++ x ++ "_" ++ rd2)%string = false).
  { unfold suplat_run. destruct (emit _ _ _ _ _) as [[? ?] ?]. cbn [o_dirs]. unfold mkdir. rewrite ND, orb_false_r. apply String.eqb_neq. unfold slash. intros H.
    apply app_same in H. discriminate H. }
  eapply LBase.Forall2_imp; [|exact F]. intros p h (g & c & G & RF & RO & W). exists g, c. split; [exact G|]. split; [exact RF|]. split; [exact RO|].
  destruct (Specie_new_total IE) as (s1 & E1 & Z1). destruct (Specie_new_total IS) as (s2 & E2 & Z2).
  destruct (proj1 (from_num_spec ele) se IE) as (s3 & E3 & _ & Z3).
  set (a2 := mkApp c x ele sp (Z.of_nat n) None false "vasp" false).
  exists (biter_run spg wy psize std hash dump a2 cwd rd2 suffix2 (o_files (suplat_run std dump a cwd suffix fs ds)) (o_dirs (suplat_run std dump a cwd suffix fs ds))). split.
  - unfold runaba. rewrite (ocubiter_line _ x se ss sn (Z.of_nat n) p); auto.
    + cbn [aba_body]. rewrite RF. cbn [bind]. unfold biter_new, App_new, comment_or, target. apply String.eqb_neq in NX. rewrite NX. cbn [bind]. rewrite E1. cbn [bind]. rewrite E2. cbn [bind].
      rewrite Z1, E3. cbn [bind]. rewrite Z2, Z3. reflexivity.
    + apply read_exists in RF. now destruct (o_files _ p).
  - apply W; [|exact DS]. repeat split. now left.
Qed.
Print Assumptions C100_session_plane.

(** ** Example: the session of the parent of C94, doubled. *)
Definition s_fs : files := MIO.put (fun _ => None) "B.yaml" (c_dump (mkY "B1" (matZ lopz) [v0] [5%Z] 1%Qc)).
Definition s_gen3 := fun w => hnfs_from_n first_order true (map fst (both w)) w.
Definition s_gen2 := fun w => hnfs_from_n_2d first_order true (map fst (both w)) w.
Definition s_ls (t : string) : res sdoc := Raise KeyError.
Lemma s_read : from_file c_load (fun q => q) (Some "B.yaml"%string) None s_fs = Ok lop.
Proof. vm_compute. repeat match goal with |- @eq Qc _ _ => apply Qc_is_canon; reflexivity | |- _ => f_equal end. Qed.
Definition s_run1 := runaba both x_wy x_psize t_std poly c_dump c_load s_ls (fun q => q) s_gen3 s_gen2 "/w" "00000" t_suffix (fun _ a b => (a ++ b)%string)
  (suplat_words "2" "vasp" "B.yaml") s_fs (fun _ => false).
Definition s_session : option (list Z) :=
  match s_run1 with
  | Called o1 =>
    match runaba both x_wy x_psize t_std poly c_dump c_load s_ls (fun q => q) s_gen3 s_gen2 "/w" "ABCDE" t_suffix (fun _ a b => (a ++ b)%string)
        (ocubiter_words "y" "B" "C" "1" "/w/SUPLAT_default/SUPLAT_2_B.vasp") (o_files o1) (o_dirs o1) with
    | Called o2 => match from_file c_load (fun q => q) (Some "/w/STRUCTURES_y_ABCDE/STRUCTURE_B1C1_A.vasp"%string) None (o_files o2) with Ok g => Some (numbers g) | Raise _ => None end
    | _ => None
    end
  | _ => None
  end.
Example C100_ex_run : s_session = Some [6; 5]%Z.
Proof. vm_compute. reflexivity. Qed.
Example C100_ex : from_file c_load (fun q => q) (Some "B.yaml"%string) None s_fs = Ok lop /\ symmetries_of (both lop) lop /\ parse_int "2" = Ok 2%Z /\
  is_element 5 "B" /\ is_element 6 "C" /\ parse_int "1" = Ok (Z.of_nat 1) /\
  (forall h g, is_hnf 2 h -> shaped_super t_std (map fst (both lop)) lop h g -> exists gops, oracles_work both poly t_suffix 5 6 1 g gops).
Proof.
  split; [exact s_read|]. split; [exact lop_symmetries|]. split; [reflexivity|]. split; [apply spec_pairs_iff; cbn; tauto|]. split; [apply spec_pairs_iff; cbn; tauto|]. split; [reflexivity|].
  intros h g H G. exists (both g). exact (proj2 (saved_all h g H G)).
Qed.
