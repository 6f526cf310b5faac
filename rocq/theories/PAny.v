(** C103: a session in any words.  Whatever the spelling and the order of the words of the two
    lines, suplat and then ocubiter or ocutenter find every derivative structure, and with the whole
    symmetry known each of them once. *)
From Coq Require Import String Permutation.
From Verif Require Import SIO MIO SCliRead Base LBase BaseQ LQ MElement SElement LElement SLattice SGeneralCell LGeneralCell MGeneralCell SSym LSym SOcc SSubst SEnum SModCell SShape LShape SRobust LRobust MHnf LHnf LSuper LDup
  MComb MText MSogen LFrame SDeriv LDeriv LDeriv2 LDeriv3 SOnce LOnce LShape2 SFlow LFlow LFlow2 LFlow3 LFlow4 LFlow5 SCli MCli SCliApp SCliOne LCli LCli7 LCli8 LCli9 LCli6 LCli10 LCrystal LFrac LCodec LSymDec LMisc LPrim LModCell4 LFilter PHnf PShape PCli PSogen PRobust PCli2 PCli4 PSuper PDeriv POnce PFlow MOpt SOpt LOpt LOpt2 LOpt3 LOpt4 POpt PSession SFlowT LFlowT PFlowT SCliArgs PCliArgs SRun LRun2 PRun LAny.
Open Scope string_scope.
Open Scope list_scope.
Notation length := List.length.

(** The directory suplat writes to. *)
Definition suplat_dir (cwd : string) (com : option string) : string :=
  (cwd ++ "/SUPLAT_" ++ match com with Some s => if String.eqb s "" then "default" else s | None => "default" end)%string.
Lemma suplat_dir_of cwd psize gen u com v mode a : suplat_new psize gen u com v mode = Ok a -> suplat_dir cwd com = (cwd ++ "/SUPLAT_" ++ s_comment a)%string.
Proof. intros E. apply C86_suplat_arguments in E as (_ & _ & _ & _ & ->). reflexivity. Qed.

Theorem C103_session : forall spg wy psize std hash dump load ls cbrt sl il cwd rd suffix suffix2 tmp len fs ds argv evs f u v mode com ele sp n,
  asks "suplat" t_suplat fs ds argv evs f -> from_file load cbrt (Some f) None fs = Ok u ->
  single evs "volumn" whole 1%Z v -> switch evs "ld" false false -> single evs "outmode" (among ["vasp"; "yaml"]) "yaml" mode -> optional evs "comment" text com ->
  set_order sl -> from_constructor u -> Forall supported (numbers u) -> some_atom (numbers u) -> volume (lattice u) <> 0%Qc -> symmetries_of (spg u) u ->
  (0 < v < 2000)%Z -> mode = "yaml"%string \/ ~ In 0%Z (numbers u) ->
  psize (spg_cell u) = length (snd (spg_cell u)) -> standardizes std -> (forall d, load (dump d) = Ok d) ->
  enough_suffixes (lat_equiv (map fst (spg u))) (fun m => Z.abs (zdet m) = v) suffix ->
  supported sp -> ele <> sp -> (forall k, String.length (suffix2 k) = len) ->
  (forall h g, is_hnf v h -> shaped_super std (map fst (spg u)) u h g -> exists gops, oracles_work spg hash suffix2 ele sp n g gops) ->
  let gen3 := fun w => hnfs_from_n sl il (map fst (spg w)) w in let gen2 := fun w => hnfs_from_n_2d sl il (map fst (spg w)) w in
  exists out1, runaba spg wy psize std hash dump load ls cbrt gen3 gen2 cwd rd suffix tmp argv fs ds = Called out1 /\
    let fs1 := o_files out1 in let ds1 := o_dirs out1 in
    exists fs0 hs ps, emptied (ds (suplat_dir cwd com)) (suplat_dir cwd com) fs fs0 /\ NoDup ps /\ (forall p, ~ In p ps -> fs1 p = fs0 p) /\
      transversal (lat_equiv (map fst (spg u))) (fun m => Z.abs (zdet m) = v) hs /\
      Forall2 (fun p h => exists g c, shaped_super std (map fst (spg u)) u h g /\ from_file load cbrt (Some p) None fs1 = Ok c /\ rounded g c /\
        forall argv2 evs2 a2 cwd2 rd2 tmp2, asks "ocubiter" t_ocubiter fs1 ds1 argv2 evs2 p -> ocubiter_settings c evs2 a2 -> plain_run a2 c ele sp n ->
          ds1 (cwd2 ++ "/STRUCTURES_" ++ a_comment a2 ++ "_" ++ rd2)%string = false ->
          exists out2, runaba spg wy psize std hash dump load ls cbrt gen3 gen2 cwd2 rd2 suffix2 tmp2 argv2 fs1 ds1 = Called out2 /\
            lists_derivatives load cbrt (map fst (spg u)) u g c h ele sp n fs1 (o_files out2)) ps hs.
Proof.
  intros spg wy psize std hash dump load ls cbrt sl il cwd rd suffix suffix2 tmp len fs ds argv evs f u v mode com ele sp n
    A RD O1 O2 O3 O4 SL FU SU AU VU SO V NV PS ST LO ES SS NS LS OR gen3 gen2.
  destruct (C94_flow std psize dump load cbrt sl il u (spg u) com v mode cwd suffix fs ds spg wy hash suffix2 len ele sp n
    SL FU SU AU VU SO V (written_mode O3) NV PS ST LO ES SS NS LS OR) as (a & EA & fs0 & hs & ps & EM & NDP & OT & TR & F).
  exists (suplat_run std dump a cwd suffix fs ds). split.
  { clear EM NDP OT TR F. apply C86_suplat_arguments in EA as (_ & EG & EV & EO & EC). subst v mode.
    apply (C102_suplat spg wy psize std hash dump load ls cbrt gen3 gen2 cwd rd suffix tmp argv fs ds evs f u a A RD). split; [exact PS|]. split; [exact O1|]. split; [exact O3|].
    split; [exists false; split; [exact O2|exact EG]|]. exists com. auto. }
  cbv zeta. exists fs0, hs, ps. split; [rewrite (suplat_dir_of _ _ _ _ _ _ _ _ EA); exact EM|]. split; [exact NDP|]. split; [exact OT|]. split; [exact TR|].
  eapply LBase.Forall2_imp; [|exact F]. intros p h (g & c & G & RF & RO & W). exists g, c. split; [exact G|]. split; [exact RF|]. split; [exact RO|].
  intros argv2 evs2 a2 cwd2 rd2 tmp2 A2 S2 P2 D2. eexists. split; [|exact (W a2 cwd2 rd2 _ P2 D2)].
  exact (C102_ocubiter spg wy psize std hash dump load ls cbrt gen3 gen2 cwd2 rd2 suffix2 tmp2 argv2 _ _ evs2 p c a2 A2 RF (rounded_supported G RO SU) S2).
Qed.
Print Assumptions C103_session.
Theorem C103_plane : forall spg wy psize std hash dump load ls cbrt sl il cwd rd suffix suffix2 tmp len fs ds argv evs f u v mode com ele sp n,
  asks "suplat" t_suplat fs ds argv evs f -> from_file load cbrt (Some f) None fs = Ok u ->
  single evs "volumn" whole 1%Z v -> switch evs "ld" false true -> single evs "outmode" (among ["vasp"; "yaml"]) "yaml" mode -> optional evs "comment" text com ->
  set_order sl -> from_constructor u -> Forall supported (numbers u) -> some_atom (numbers u) -> volume (lattice u) <> 0%Qc -> symmetries_of (spg u) u ->
  (0 < v < 2000)%Z -> mode = "yaml"%string \/ ~ In 0%Z (numbers u) ->
  psize (spg_cell u) = length (snd (spg_cell u)) -> standardizes std -> (forall d, load (dump d) = Ok d) ->
  enough_suffixes (lat_equiv (map fst (spg u))) (fun m => in_plane m /\ Z.abs (zdet m) = v) suffix ->
  supported sp -> ele <> sp -> (forall k, String.length (suffix2 k) = len) ->
  (forall h g, is_hnf v h -> shaped_super std (map fst (spg u)) u h g -> exists gops, oracles_work spg hash suffix2 ele sp n g gops) ->
  let gen3 := fun w => hnfs_from_n sl il (map fst (spg w)) w in let gen2 := fun w => hnfs_from_n_2d sl il (map fst (spg w)) w in
  exists out1, runaba spg wy psize std hash dump load ls cbrt gen3 gen2 cwd rd suffix tmp argv fs ds = Called out1 /\
    let fs1 := o_files out1 in let ds1 := o_dirs out1 in
    exists fs0 hs ps, emptied (ds (suplat_dir cwd com)) (suplat_dir cwd com) fs fs0 /\ NoDup ps /\ (forall p, ~ In p ps -> fs1 p = fs0 p) /\
      transversal (lat_equiv (map fst (spg u))) (fun m => in_plane m /\ Z.abs (zdet m) = v) hs /\
      Forall2 (fun p h => exists g c, shaped_super std (map fst (spg u)) u h g /\ from_file load cbrt (Some p) None fs1 = Ok c /\ rounded g c /\
        forall argv2 evs2 a2 cwd2 rd2 tmp2, asks "ocubiter" t_ocubiter fs1 ds1 argv2 evs2 p -> ocubiter_settings c evs2 a2 -> plain_run a2 c ele sp n ->
          ds1 (cwd2 ++ "/STRUCTURES_" ++ a_comment a2 ++ "_" ++ rd2)%string = false ->
          exists out2, runaba spg wy psize std hash dump load ls cbrt gen3 gen2 cwd2 rd2 suffix2 tmp2 argv2 fs1 ds1 = Called out2 /\
            lists_derivatives load cbrt (map fst (spg u)) u g c h ele sp n fs1 (o_files out2)) ps hs.
Proof.
  intros spg wy psize std hash dump load ls cbrt sl il cwd rd suffix suffix2 tmp len fs ds argv evs f u v mode com ele sp n
    A RD O1 O2 O3 O4 SL FU SU AU VU SO V NV PS ST LO ES SS NS LS OR gen3 gen2.
  destruct (C94_flow_plane std psize dump load cbrt sl il u (spg u) com v mode cwd suffix fs ds spg wy hash suffix2 len ele sp n
    SL FU SU AU VU SO V (written_mode O3) NV PS ST LO ES SS NS LS OR) as (a & EA & fs0 & hs & ps & EM & NDP & OT & TR & F).
  exists (suplat_run std dump a cwd suffix fs ds). split.
  { clear EM NDP OT TR F. apply C86_suplat_arguments in EA as (_ & EG & EV & EO & EC). subst v mode.
    apply (C102_suplat spg wy psize std hash dump load ls cbrt gen3 gen2 cwd rd suffix tmp argv fs ds evs f u a A RD). split; [exact PS|]. split; [exact O1|]. split; [exact O3|].
    split; [exists true; split; [exact O2|exact EG]|]. exists com. auto. }
  cbv zeta. exists fs0, hs, ps. split; [rewrite (suplat_dir_of _ _ _ _ _ _ _ _ EA); exact EM|]. split; [exact NDP|]. split; [exact OT|]. split; [exact TR|].
  eapply LBase.Forall2_imp; [|exact F]. intros p h (g & c & G & RF & RO & W). exists g, c. split; [exact G|]. split; [exact RF|]. split; [exact RO|].
  intros argv2 evs2 a2 cwd2 rd2 tmp2 A2 S2 P2 D2. eexists. split; [|exact (W a2 cwd2 rd2 _ P2 D2)].
  exact (C102_ocubiter spg wy psize std hash dump load ls cbrt gen3 gen2 cwd2 rd2 suffix2 tmp2 argv2 _ _ evs2 p c a2 A2 RF (rounded_supported G RO SU) S2).
Qed.
Print Assumptions C103_plane.

(** Each of them once, if the parent cell is primitive and spglib reports the whole symmetry. *)
Theorem C103_once : forall spg wy psize std hash dump load ls cbrt sl il cwd rd suffix suffix2 tmp len fs ds argv evs f u v mode com ele sp n,
  asks "suplat" t_suplat fs ds argv evs f -> from_file load cbrt (Some f) None fs = Ok u ->
  single evs "volumn" whole 1%Z v -> switch evs "ld" false false -> single evs "outmode" (among ["vasp"; "yaml"]) "yaml" mode -> optional evs "comment" text com ->
  set_order sl -> from_constructor u -> Forall supported (numbers u) -> some_atom (numbers u) -> volume (lattice u) <> 0%Qc -> symmetries_of (spg u) u ->
  smallest (cell_of u) -> all_symmetries (spg u) (cell_of u) ->
  (0 < v < 2000)%Z -> mode = "yaml"%string \/ ~ In 0%Z (numbers u) ->
  psize (spg_cell u) = length (snd (spg_cell u)) -> standardizes std -> (forall d, load (dump d) = Ok d) ->
  enough_suffixes (lat_equiv (map fst (spg u))) (fun m => Z.abs (zdet m) = v) suffix ->
  supported sp -> ele <> sp -> (forall k, String.length (suffix2 k) = len) ->
  (forall h g, is_hnf v h -> shaped_super std (map fst (spg u)) u h g -> exists gops, all_symmetries gops (cell_of g) /\ oracles_work spg hash suffix2 ele sp n g gops) ->
  let gen3 := fun w => hnfs_from_n sl il (map fst (spg w)) w in let gen2 := fun w => hnfs_from_n_2d sl il (map fst (spg w)) w in
  exists out1, runaba spg wy psize std hash dump load ls cbrt gen3 gen2 cwd rd suffix tmp argv fs ds = Called out1 /\
    let fs1 := o_files out1 in let ds1 := o_dirs out1 in
    exists hs ps, Forall2 (fun p h => exists g, shaped_super std (map fst (spg u)) u h g /\ exists c, from_file load cbrt (Some p) None fs1 = Ok c /\ rounded g c) ps hs /\
      forall m C, Z.abs (zdet m) = v -> derivative_with u m ele sp n C -> primitive_along (lattice u) m C ->
      exists k p h g c, nth_error ps k = Some p /\ nth_error hs k = Some h /\ shaped_super std (map fst (spg u)) u h g /\ from_file load cbrt (Some p) None fs1 = Ok c /\
        (forall k' h' g' y, nth_error hs k' = Some h' -> shaped_super std (map fst (spg u)) u h' g' -> shown_as u g' y C -> k' = k) /\
        forall argv2 evs2 a2 cwd2 rd2 tmp2, asks "ocubiter" t_ocubiter fs1 ds1 argv2 evs2 p -> ocubiter_settings c evs2 a2 -> plain_run a2 c ele sp n ->
          ds1 (cwd2 ++ "/STRUCTURES_" ++ a_comment a2 ++ "_" ++ rd2)%string = false ->
          exists out2, runaba spg wy psize std hash dump load ls cbrt gen3 gen2 cwd2 rd2 suffix2 tmp2 argv2 fs1 ds1 = Called out2 /\
            let fs2 := o_files out2 in
            exists p2s ys, NoDup p2s /\ (forall p2, ~ In p2 p2s -> fs2 p2 = fs1 p2) /\ Forall2 (fun p2 y => reads_as load cbrt fs2 p2 (decorated c y)) p2s ys /\
              exists j, (exists y, nth_error ys j = Some y /\ shown_as u g y C) /\ forall j' y', nth_error ys j' = Some y' -> shown_as u g y' C -> j' = j.
Proof.
  intros spg wy psize std hash dump load ls cbrt sl il cwd rd suffix suffix2 tmp len fs ds argv evs f u v mode com ele sp n
    A RD O1 O2 O3 O4 SL FU SU AU VU SO SM AS V NV PS ST LO ES SS NS LS OR gen3 gen2.
  destruct (C94_once std psize dump load cbrt sl il u (spg u) com v mode cwd suffix fs ds spg wy hash suffix2 len ele sp n
    SL FU SU AU VU SO SM AS V (written_mode O3) NV PS ST LO ES SS NS LS OR) as (a & EA & hs & ps & F & W).
  exists (suplat_run std dump a cwd suffix fs ds). split.
  { apply C86_suplat_arguments in EA as (_ & EG & EV & EO & EC). subst v mode.
    apply (C102_suplat spg wy psize std hash dump load ls cbrt gen3 gen2 cwd rd suffix tmp argv fs ds evs f u a A RD). split; [exact PS|]. split; [exact O1|]. split; [exact O3|].
    split; [exists false; split; [exact O2|exact EG]|]. exists com. auto. }
  cbv zeta. exists hs, ps. split; [exact F|]. intros m C Vm DW PA. destruct (W m C Vm DW PA) as (k & p & h & g & c & Ek & Eh & G & RF & ON & W2).
  exists k, p, h, g, c. repeat (split; [assumption|]). intros argv2 evs2 a2 cwd2 rd2 tmp2 A2 S2 P2 D2. eexists. split; [|exact (W2 a2 cwd2 rd2 _ P2 D2)].
  assert (SC : Forall supported (numbers c)).
  { destruct (Forall2_nthl F Ek) as (h0 & Eh0 & g0 & G0 & c0 & RF0 & RO). rewrite RF in RF0. injection RF0 as <-. exact (rounded_supported G0 RO SU). }
  exact (C102_ocubiter spg wy psize std hash dump load ls cbrt gen3 gen2 cwd2 rd2 suffix2 tmp2 argv2 _ _ evs2 p c a2 A2 RF SC S2).
Qed.
Print Assumptions C103_once.

(** With two species; the first command must write YAML, which is its default. *)
Theorem C103_ternary : forall spg wy psize std hash dump load ls cbrt sl il cwd rd suffix suffix2 tmp tmp2 N fs ds argv evs f u v com v1 n1 v2 n2,
  asks "suplat" t_suplat fs ds argv evs f -> from_file load cbrt (Some f) None fs = Ok u ->
  single evs "volumn" whole 1%Z v -> switch evs "ld" false false -> single evs "outmode" (among ["vasp"; "yaml"]) "yaml" "yaml" -> optional evs "comment" text com ->
  set_order sl -> from_constructor u -> Forall supported (numbers u) -> volume (lattice u) <> 0%Qc -> symmetries_of (spg u) u -> (0 < v < 2000)%Z ->
  psize (spg_cell u) = length (snd (spg_cell u)) -> standardizes std -> same_yaml dump load ls ->
  enough_suffixes (lat_equiv (map fst (spg u))) (fun m => Z.abs (zdet m) = v) suffix ->
  supported v1 -> supported v2 -> v1 <> v2 -> ~ In v1 (numbers u) -> ~ In v2 (numbers u) -> fresh_names N tmp2 ->
  (forall h g, is_hnf v h -> shaped_super std (map fst (spg u)) u h g -> exists gops, oracles_work2 spg hash v1 n1 v2 n2 g gops) ->
  let gen3 := fun w => hnfs_from_n sl il (map fst (spg w)) w in let gen2 := fun w => hnfs_from_n_2d sl il (map fst (spg w)) w in
  exists out1, runaba spg wy psize std hash dump load ls cbrt gen3 gen2 cwd rd suffix tmp argv fs ds = Called out1 /\
    let fs1 := o_files out1 in let ds1 := o_dirs out1 in
    exists fs0 hs ps, emptied (ds (suplat_dir cwd com)) (suplat_dir cwd com) fs fs0 /\ NoDup ps /\ (forall p, ~ In p ps -> fs1 p = fs0 p) /\
      transversal (lat_equiv (map fst (spg u))) (fun m => Z.abs (zdet m) = v) hs /\
      Forall2 (fun p h => exists g c doc, shaped_super std (map fst (spg u)) u h g /\ fs1 p = Some (dump doc) /\ document_cell doc = Ok c /\ rounded g c /\
        forall argv2 evs2 d a2 cwd2 rd2, asks "ocutenter" t_ocutenter fs1 ds1 argv2 evs2 p -> ls (dump doc) = Ok d -> ternary_settings d evs2 a2 ->
          switch evs2 "mpr" true (t_mpr a2) -> couple evs2 "nspeckle" whole (Some (Z.of_nat n1, Z.of_nat n2)) -> plain_trun a2 c v1 v2 ->
          ds1 (cwd2 ++ "/STRUCTURES_" ++ t_comment a2 ++ "_" ++ rd2)%string = false ->
          exists out2, runaba spg wy psize std hash dump load ls cbrt gen3 gen2 cwd2 rd2 suffix2 tmp2 argv2 fs1 ds1 = Called out2 /\
            lists_derivatives2 load cbrt N (t_outmode a2) (map fst (spg u)) u g c h v1 n1 v2 n2 fs1 (o_files out2)) ps hs.
Proof.
  intros spg wy psize std hash dump load ls cbrt sl il cwd rd suffix suffix2 tmp tmp2 N fs ds argv evs f u v com v1 n1 v2 n2
    A RD O1 O2 O3 O4 SL FU SU VU SO V PS ST SY ES S1 S2 N12 N1 N2 FR OR gen3 gen2.
  destruct (C101_flow std psize dump load cbrt sl il u (spg u) com v cwd suffix fs ds spg wy hash N tmp2 v1 n1 v2 n2
    SL FU SU VU SO V PS ST (fun d => proj1 (SY d)) ES S1 S2 N12 N1 N2 FR OR) as (a & EA & fs0 & hs & ps & EM & NDP & OT & TR & F).
  exists (suplat_run std dump a cwd suffix fs ds). split.
  { clear EM NDP OT TR F. apply C86_suplat_arguments in EA as (_ & EG & EV & EO & EC). subst v.
    apply (C102_suplat spg wy psize std hash dump load ls cbrt gen3 gen2 cwd rd suffix tmp argv fs ds evs f u a A RD). split; [exact PS|]. split; [exact O1|]. split; [rewrite EO; exact O3|].
    split; [exists false; split; [exact O2|exact EG]|]. exists com. auto. }
  cbv zeta. exists fs0, hs, ps. split; [rewrite (suplat_dir_of _ _ _ _ _ _ _ _ EA); exact EM|]. split; [exact NDP|]. split; [exact OT|]. split; [exact TR|].
  eapply LBase.Forall2_imp; [|exact F]. intros p h (g & c & doc & G & RF & DC & RO & W). exists g, c, doc. repeat (split; [assumption|]).
  intros argv2 evs2 d a2 cwd2 rd2 A2 LD S M2 C2 P2 D2. eexists. split; [|exact (W a2 cwd2 rd2 _ P2 D2)].
  exact (C102_ocutenter spg wy psize std hash dump load ls cbrt gen3 gen2 cwd2 rd2 suffix2 tmp2 argv2 _ _ evs2 p (dump doc) d a2 _ _ A2 RF LD S M2 C2).
Qed.
Print Assumptions C103_ternary.

(** *** The session of C94 and C100 in other words *)
Definition w_suplat := ["--"; "suplat"; "--no-ld"; "B.yaml"; "-v7"; "--volumn=2"].
Definition ev_suplat := [Flag "ld" false; Pos "B.yaml"; Given "volumn" ["7"]; Given "volumn" ["2"]].
Definition w_biter (p : string) := ["ocubiter"; "-NeB"; "-s"; "C"; "--no-refined"; "-n1"; "-cy"; "--"; p].
Definition ev_biter (p : string) := [Flag "mpr" false; Given "element" ["B"]; Given "speckle" ["C"]; Flag "refined" false; Given "nspeckle" ["1"]; Given "comment" ["y"]; Pos p].
Example C103_ex : asks "suplat" t_suplat s_fs (fun _ => false) w_suplat ev_suplat "B.yaml" /\ from_file c_load (fun q => q) (Some "B.yaml") None s_fs = Ok lop /\
  single ev_suplat "volumn" whole 1%Z 2%Z /\ switch ev_suplat "ld" false false /\ single ev_suplat "outmode" (among ["vasp"; "yaml"]) "yaml" "yaml" /\ optional ev_suplat "comment" text None /\
  forall fs1 ds1 p c, fs1 p <> None -> asks "ocubiter" t_ocubiter fs1 ds1 (w_biter p) (ev_biter p) p /\ ocubiter_settings c (ev_biter p) (x_run c) /\ plain_run (x_run c) c 5 6 1.
Proof.
  split; [said ok_suplat; last_one (firstn 1 ev_suplat) (skipn 2 ev_suplat)|]. split; [exact s_read|].
  split; [right; exists "2"; split; [last_one (firstn 3 ev_suplat) (@nil ev)|reflexivity]|]. split; [right; last_one (@nil ev) (skipn 1 ev_suplat)|]. split; [unmentioned|]. split; [unmentioned|].
  intros fs1 ds1 p c X. split; [|split; [|repeat split; now left]].
  - exists (tl (w_biter p)). split; [left; reflexivity|]. split; [apply (scan_iff ok_ocubiter); reflexivity|]. split; [intros b H; no_more H|]. split; [now left|].
    last_one (firstn 6 (ev_biter p)) (@nil ev).
  - split; [exists (Some "y"), (Some "B"), (Some "C"), []|split].
    + split; [right; exists "y", "y"; split; [last_one (firstn 5 (ev_biter p)) (skipn 6 (ev_biter p))|now split]|].
      split; [right; exists "B", "B"; split; [last_one (firstn 1 (ev_biter p)) (skipn 2 (ev_biter p))|now split]|].
      split; [right; exists "C", "C"; split; [last_one (firstn 2 (ev_biter p)) (skipn 3 (ev_biter p))|now split]|].
      split; [repeat (apply ev_other; [discriminate|]); apply ev_nil|]. split; [reflexivity|]. split; [reflexivity|]. split; [named|]. split; [named|]. split; [reflexivity|].
      split; [right; last_one (firstn 3 (ev_biter p)) (skipn 4 (ev_biter p))|unmentioned].
    + right. last_one (@nil ev) (skipn 1 (ev_biter p)).
    + exists (Some 1%Z). split; [|reflexivity]. right. exists "1", 1%Z. split; [last_one (firstn 4 (ev_biter p)) (skipn 5 (ev_biter p))|now split].
Qed.
Definition w_tenter (p : string) := ["--"; "ocutenter"; "-N"; "--speckle"; "C"; "N"; "--element=B"; "--no-refined"; "--number-speckle=1"; "1"; "--outmode"; "yaml"; "--comment=y"; p].
Example C103_ex_run :
  match q_run "00000" w_suplat s_fs (fun _ => false) with
  | Called o1 =>
    match q_run "ABCDE" (w_biter "/w/SUPLAT_default/SUPLAT_2_B.yaml") (o_files o1) (o_dirs o1), q_run "VWXYZ" (w_tenter "/w/SUPLAT_default/SUPLAT_2_B.yaml") (o_files o1) (o_dirs o1) with
    | Called o2, Called o3 =>
        (match from_file c_load (fun q => q) (Some "/w/STRUCTURES_y_ABCDE/STRUCTURE_B1C1_A.vasp") None (o_files o2) with Ok g => numbers g | Raise _ => [] end,
         match from_file c_load (fun q => q) (Some "/w/STRUCTURES_y_VWXYZ/STRUCTURE_A0B1C1_.yaml") None (o_files o3) with Ok g => numbers g | Raise _ => [] end)
    | _, _ => ([], []) end
  | _ => ([], []) end = ([6; 5], [6; 7])%Z.
Proof. vm_compute. reflexivity. Qed.
