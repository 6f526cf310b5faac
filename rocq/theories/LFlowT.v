(** suplat, then ocutenter. *)
From Coq Require Import String Permutation.
From Verif Require Import SIO MIO LIO LIO2 LIO3 LIO4 LIO6 SCliRead Base BaseQ LBase LQ SElement MElement LElement SSubst SSym LSym SOcc SEnum MGeneralCell SGeneralCell LGeneralCell MComb MSogen LDup LSogen
  MText LText LMat3 LSuper LSuper2 LFrac LCrystal LGrid LModCell4 SBurn LBurn SLattice SModCell SShape LShape LShape2 SDeriv LDeriv LDeriv2 LDeriv3 SRobust LRobust LFlow LFlow4 SFlow LFlow2 LFlow3 MHnf LHnf SCli MCli SCliApp LCli SCliOne LCli7 LCli8 LCli9 LCli10 PCli2 PCli4 PSuper LOnce MOpt SFlowT.
Set Implicit Arguments.
Unset Strict Implicit.
Open Scope list_scope.
Open Scope nat_scope.
Notation length := List.length.

(** *** every decoration with species of [news] is a derivative structure *)
Section Sound.
Context (u g : gcell) (h : mat Z) (q : mat Qc) (w : vec Qc) (news : list Z) (y : list Z).
Hypothesis VG : volume (lattice g) <> 0%Qc.
Hypothesis Lg : length (numbers g) = length (positions g).
Hypothesis Dg : SSym.distinct_sites (positions g).
Hypothesis CF : carries_frame u g h q w.
Hypothesis Ly : length y = length (positions g).
Hypothesis YS : forall i a b, nth_error (numbers g) i = Some a -> nth_error y i = Some b -> In b news \/ b = a.
Notation F := (move q w).
Notation B := (unmove q w).
Notation here := (crystal_atom (lattice g) (positions g) (numbers g)).
Notation made := (crystal_atom (lattice g) (positions g) y).

Lemma made_news : derivative (cell_of u) h news (fun z r => made z (F r)).
Proof.
  split.
  - intros r. split.
    + intros (z & i & p & s & P & _ & E). destruct (nth_pair (x := numbers g) Lg P) as (a & A). exists a. apply (cf_atoms CF). exists i, p, s. auto.
    + intros (z & H). apply (cf_atoms CF) in H as (i & p & s & P & _ & E). destruct (nth_pair (x := y) Ly P) as (a & A). exists a, i, p, s. auto.
  - intros r z z'. apply unique_species; [exact VG|]. now apply exact_distinct.
  - intros r z (i & p & s & P & Y & E). destruct (nth_pair (x := numbers g) Lg P) as (a & A).
    destruct (YS A Y) as [H|H]; [now left|right]. subst z. apply (cf_atoms CF). exists i, p, s. auto.
  - intros k z r H. cbn [cell_of fst]. destruct (cf_forth CF k) as (s & E). rewrite E. now apply made_shift.
Qed.
Lemma made_news_replaced sp : exists subs, length subs = length (diffs (numbers g) y sp) /\ replaced_per_period (cell_of u) h sp (fun z r => made z (F r)) subs.
Proof.
  pose proof (cf_orth CF) as OQ. set (S := diffs (numbers g) y sp). assert (ND : NoDup S) by apply diffs_NoDup.
  assert (LL : length y = length (numbers g)) by congruence.
  assert (UN : forall z z' v, here z v -> here z' v -> z = z') by (intros z z' v; apply unique_species; [exact VG|now apply exact_distinct]).
  assert (AT : forall i, In i S -> exists p a, nth_error (positions g) i = Some p /\ nth_error y i = Some sp /\ nth_error (numbers g) i = Some a /\ a <> sp).
  { intros i I. apply (diffs_In sp i LL) in I as (a & A & Y & N). destruct (nth_pair (x := positions g) (eq_sym Lg) A) as (p & P). exists p, a. auto. }
  assert (FBk : forall v, F (B v) = v) by (intros v; now apply move_unmove).
  exists (map (fun i => B (vec_mat (nth i (positions g) v0) (lattice g))) S). split; [now rewrite map_length|]. split; [|split]; unfold replaced.
  - apply Forall_forall. intros r I. apply in_map_iff in I as (i & <- & I). destruct (AT i I) as (p & a & P & Y & A & N).
    rewrite (nth_error_nth _ _ _ P), FBk. split; [now apply atom_here with i|]. intros K. apply (cf_atoms CF) in K. rewrite FBk in K.
    apply N. apply (UN a sp (vec_mat p (lattice g))); [now apply atom_here with i|exact K].
  - intros r [(i & p & s & P & Y & E) N].
    assert (I : In i S).
    { destruct (nth_pair (x := numbers g) Lg P) as (a & A). apply (diffs_In sp i LL). exists a. split; [exact A|]. split; [exact Y|]. intros ->. apply N, (cf_atoms CF). exists i, p, s. auto. }
    destruct (cf_back CF s) as (k & K). exists (B (vec_mat p (lattice g))), k. split.
    + apply in_map_iff. exists i. split; [now rewrite (nth_error_nth _ _ _ P)|exact I].
    + cbn [cell_of fst]. rewrite <- K, <- vec_mat_add, <- E. symmetry. now apply unmove_move.
  - assert (IS' : forall i, In i S -> In i S) by auto. revert ND IS'. generalize S at 1 2 4. intros S' ND. induction ND as [|i S' N ND IH]; intros IS'; cbn [map]; constructor.
    + apply Forall_forall. intros r I k E. apply in_map_iff in I as (j & <- & I). destruct (AT i (IS' i (or_introl eq_refl))) as (p & a & P & _).
      destruct (AT j (IS' j (or_intror I))) as (p' & a' & P' & _). rewrite (nth_error_nth _ _ _ P), (nth_error_nth _ _ _ P') in E. cbn [cell_of fst] in E.
      apply (f_equal F) in E. destruct (cf_forth CF k) as (s & K). rewrite K, !FBk, <- vec_mat_add in E.
      apply N. replace i with j; [exact I|]. exact (exact_distinct VG Dg P' P E).
    + apply IH. intros j J. apply IS'. now right.
Qed.
End Sound.

Lemma two_diffs init n1 v1 n2 v2 y : v1 <> v2 -> ~ In v1 init -> ~ In v2 init -> two_fold init n1 v1 n2 v2 y ->
  length (diffs init y v1) = n1 /\ length (diffs init y v2) = n2.
Proof.
  intros N12 N1 N2 T. assert (L : length y = length init) by (destruct T as (? & ? & _ & _ & _ & L & _); exact L).
  destruct (two_places N12 T) as (P1 & P2). destruct (P1 N1) as (S1 & D1 & <- & I1). destruct (P2 N2) as (S2 & D2 & <- & I2).
  assert (K : forall v S, ~ In v init -> NoDup S -> (forall i, In i S <-> nth_error y i = Some v) -> length (diffs init y v) = length S).
  { intros v S NI ND I. apply Permutation_length, NoDup_Permutation; [apply diffs_NoDup|exact ND|]. intros i. rewrite (diffs_In v i L), I. split.
    - now intros (a & _ & Y & _).
    - intros Y. destruct (nth_pair (x := init) (eq_sym L) Y) as (a & A). exists a. split; [exact A|]. split; [exact Y|]. intros ->. apply NI. eapply nth_error_In; eauto. }
  split; apply K; auto.
Qed.

(** *** the second command *)
Section Second.
Context (dump : ydoc -> string) (load : string -> res ydoc) (cbrt : Qc -> Qc) (spg : gcell -> list (mat Z * vec Qc)) (wy : gcell -> list string)
  (psize : cell3 -> nat) (std : cell3 -> cell3) (hash : list Z -> Z) (g : gcell) (ops : list (mat Z * vec Qc)) (N : nat) (tmp : files -> string -> string -> string)
  (v1 v2 : Z) (n1 n2 : nat).
Notation D := (two_fold (numbers g) n1 v1 n2 v2).
Hypothesis FG : from_constructor g.
Hypothesis OW : oracles_work2 spg hash v1 n1 v2 n2 g ops.
Hypothesis SG : Forall supported (numbers g).
Hypothesis S1 : supported v1.
Hypothesis S2 : supported v2.
Hypothesis FR : fresh_names N tmp.
Hypothesis LD : forall d, load (dump d) = Ok d.

Lemma second_step2 lat atoms pos c : Permutation atoms (combine (positions g) (numbers g)) -> Forall2 (vwithin read_tol) (map fst atoms) pos ->
  mwithin read_tol (lattice g) lat -> GeneralCell_new lat pos (map snd atoms) = Ok c ->
  rounded g c /\ forall a cwd rd fs ds, plain_trun a c v1 v2 -> ds (cwd ++ "/STRUCTURES_" ++ t_comment a ++ "_" ++ rd)%string = false ->
    readable_by_composition load cbrt N (t_outmode a) (geo_equivalent ops (positions g)) (fun _ => D) (fun y => eq (decorated c y)) [(n1, n2)] fs
      (o_files (tenter_run spg wy psize std hash dump a (Z.of_nat n1) (Z.of_nat n2) cwd rd tmp fs ds)).
Proof.
  intros PM VW MW EC. destruct OW as (((DS & GRP & SP & RG) & m & R & MG & RS & LE & NO) & CFR & SA).
  destruct (rounded_copy FG DS MG LE PM VW MW EC) as (RD & EG & MA & NR). split; [exact RD|].
  intros a cwd rd fs ds (P1 & P2 & P3 & P4 & (s1 & E1 & Z1) & (s2 & E2 & Z2)) DD. destruct (NO c RD) as (t & FO & LT).
  assert (LL : length (map fst atoms) = length (map snd atoms)) by now rewrite !map_length.
  assert (SE : small_errors m (map fst atoms) pos ops (spg c) apply_op).
  { split; [exact MA|]. exists R, read_tol, t, 0%Qc. split; [exact NR|]. split; [exact FO|]. split; [exact RS|]. split.
    - intros o p. rewrite apply_op_image. split; [|split]; exists 0%Z; change (Zc 0) with 0%Qc; split; qclra.
    - split; [exact LE|]. replace (Zc R * read_tol + t + 0)%Qc with (Zc R * read_tol + t)%Qc by ring. exact LT. }
  assert (KEEP : species_kept ops (positions g) (numbers g)).
  { intros o i j p p' Io P P' K. apply (SP o i j p p' Io P P'). now apply carries_exactly_carries. }
  assert (NEc : positions c <> []).
  { destruct RD as (_ & _ & F). destruct (from_constructor_facts FG) as (_ & NEg & _). intros Z. rewrite Z in F. inversion F. congruence. }
  destruct (get_symmetry_permutation (spg c) c) as [perms|] eqn:EP; [|rewrite mapM_gsp_ok in EP by exact NEc; discriminate].
  destruct (noisy_facts (wy c) LL EG DS GRP KEEP SE EC EP) as (NUM & _ & FC & PG & PR & GE).
  assert (OG : OccupyGenerator_new (spg c) (wy c) c = Ok (mkOcc c perms (wy c))) by (unfold OccupyGenerator_new; now rewrite EP).
  assert (DL : forall x, D x -> length x = length (numbers g)) by (intros x (? & ? & _ & _ & _ & L & _); exact L).
  assert (EQ : forall x y, D x -> (geo_equivalent ops (positions g) x y <-> equivalent perms x y)).
  { intros x y Dx. symmetry. apply GE. rewrite NUM. exact (DL x Dx). }
  assert (WN : forall x, wanted psize (t_mpr a) None (decorated (t_cell a) x)) by (intros x; split; [rewrite P4; discriminate|discriminate]).
  assert (SX : forall x, D x -> Forall supported x).
  { intros x Dx. apply Forall_forall. intros z I. apply In_nth_error in I as (i & I). destruct (nth_pair (x := numbers g) (eq_sym (DL x Dx)) I) as (b & B).
    destruct (two_choice Dx B I) as [[<-|[<-|[]]]| ->]; auto. rewrite Forall_forall in SG. apply SG. eapply nth_error_In; eauto. }
  pose proof (@C80_ocutenter load cbrt N spg wy psize std hash dump a n1 n2 cwd rd tmp fs ds (mkOcc c perms (wy c)) None s1 s2) as K.
  cbv zeta in K. rewrite P1, P2, P3, P4, Z1, Z2, NUM in K. cbn [sym_perm] in K. rewrite NUM in PG, PR. rewrite P1, P4 in WN.
  destruct K as (out & ps & K1 & K2).
  { exact DD. } { exact OG. } { reflexivity. } { exact FR. } { exact E1. } { exact E2. } { exact FC. } { exact PG. } { exact PR. } { exact CFR. }
  { intros m1 m2 [[= <- <-]|[]]. cbv zeta. rewrite P1, P3, P4, NUM. split; [|split].
    - intros x Dx. exists (decorated c x). split; [reflexivity|]. exact (SX x Dx).
    - intros x z d _. discriminate.
    - intros x y _ _ _ _. apply WN. }
  { intros x c' Dx ->. cbn [numbers decorated]. now apply SA. }
  { exact LD. }
  exists out, ps. split.
  - intros n [<-|[]]. pose proof (K1 (n1, n2) (or_introl eq_refl)) as (T1 & T2 & T3). cbn [fst snd] in T1, T2.
    refine (@transversal_rel _ (equivalent perms) _ _ _ _ _); [intros x y Dx; symmetry; now apply EQ|].
    split; [eapply Forall_impl; [|exact T1]; intros x H; apply H|]. split; [|exact T3]. intros x Dx. apply T2. split; [exact Dx|apply WN].
  - intros k FA RM. destruct (K2 k FA RM) as (A & B & C & E). split; [exact A|]. split; [exact B|]. split; [exact C|].
    eapply Forall2_imp; [|exact E]. intros p y H M. destruct (H M) as (c' & W & RA). exists c'. split; [symmetry; exact W|exact RA].
Qed.
End Second.

(** *** the first command *)
Lemma document_facts g d : Forall supported (numbers g) -> length (positions g) = length (numbers g) -> positions g <> [] -> yaml_doc g = Ok d ->
  exists lat pos c, document_cell d = Ok c /\ GeneralCell_new lat pos (map snd (combine (positions g) (numbers g))) = Ok c /\
    mwithin read_tol (lattice g) lat /\ Forall2 (vwithin read_tol) (map fst (combine (positions g) (numbers g))) pos.
Proof.
  intros S L NE E. destruct (yaml_doc_ok S) as (d0 & E0 & N & _ & Z & EL & EP). rewrite E in E0. injection E0 as <-.
  rewrite (combine_snd L), (combine_fst L).
  assert (W : forall x, within read_tol x (around 6 x)).
  { intros x. pose proof (around6_within x) as (A & B). unfold within, read_tol. split; generalize dependent (around 6 x); intros r A B; qclra. }
  set (lat := vmap (vmap (fun x => x * 1)%Qc) (vmap (vmap (around 6)) (lattice g))). set (pos := map (vmap (around 6)) (positions g)).
  assert (NP : pos <> []) by (subst pos; destruct (positions g); [congruence|discriminate]).
  assert (LP : length pos = length (numbers g)) by (subst pos; now rewrite map_length).
  destruct (make_cell lat NP LP) as (c & G & _). exists lat, pos, c. split; [unfold document_cell; rewrite N, Z, EL, EP; exact G|]. split; [exact G|]. split.
  - apply mwithin_map. intros x. rewrite Qcmult_1_r. apply W.
  - subst pos. clear - W. induction (positions g) as [|p l IH]; cbn [map]; constructor; [|exact IH]. now apply vwithin_map.
Qed.

Section First.
Context (std : cell3 -> cell3) (dump : ydoc -> string) (rots : list (mat Z)) (u : gcell) (v : Z) (a : sapp)
  (cwd : string) (suffix : nat -> string) (fs : files) (ds : string -> bool).
Hypothesis NE : positions u <> [].
Hypothesis LU : length (positions u) = length (numbers u).
Hypothesis SU : Forall supported (numbers u).
Hypothesis V : (v < 100000)%Z.
Hypothesis ST : standardizes std.
Hypothesis VU : volume (lattice u) <> 0%Qc.
Hypothesis DU : SShape.distinct_sites (lattice u) (positions u).
Hypothesis MO : Forall (made_of rots u v) (s_hnfs a).
Hypothesis OM : s_outmode a = "yaml"%string.
Hypothesis DF : forall i j, i < j < length (s_hnfs a) -> suffix i <> suffix j.
Notation d := (cwd ++ "/SUPLAT_" ++ s_comment a)%string.
Notation fs1 := (o_files (suplat_run std dump a cwd suffix fs ds)).

Lemma first_step2 : exists fs0 ps, emptied (ds d) d fs fs0 /\ NoDup ps /\ (forall p, ~ In p ps -> fs1 p = fs0 p) /\ Forall2 (fun p h =>
  exists c g doc, is_hnf v h /\ to_general_cell (SuperLatticeCell_new rots u h) = Ok c /\ get_shaped_cell std c = Ok g /\
    from_constructor g /\ stands_for u h g /\ Forall supported (numbers g) /\ (forall z, In z (numbers g) -> In z (numbers u)) /\
    fs1 p = Some (dump doc) /\ yaml_doc g = Ok doc)
  ps (map sl_H (s_hnfs a)).
Proof.
  pose proof (@all_shaped std u v NE LU VU DU V ST) as ST1.
  assert (X : o_exn (suplat_run std dump a cwd suffix fs ds) = None).
  { apply suplat_run_total; [now right|]. intros s I. rewrite Forall_forall in MO. destruct (@made_shape std rots u v NE LU SU V ST1 s (MO s I)) as (c1 & g & E1 & E2 & E3 & _). eauto. }
  destruct (suplat_run_spec std dump a cwd suffix fs ds) as (fs0 & done & rest & ws & E1 & E2 & E3 & E4 & E5 & E6).
  rewrite (E5 X), app_nil_r in E2. subst done. exists fs0, (map fst ws). split; [exact E1|].
  pose proof (aw_each E4 (proj2 (suplat_distinct E3) DF)) as (ND & W & OT). split; [exact ND|]. split; [exact OT|].
  destruct E3 as [LW IW]. apply Forall2_nth_intro; [now rewrite !map_length|]. intros k p h Ep Eh.
  rewrite nth_error_map in Ep, Eh. destruct (nth_error ws k) as [[p0 t]|] eqn:Ew; [|discriminate]. destruct (nth_error (s_hnfs a) k) as [s|] eqn:Ek; [|discriminate].
  cbn in Ep, Eh. injection Ep as <-. injection Eh as <-. rename p0 into p.
  rewrite Forall_forall in MO. pose proof (MO s (nth_error_In _ _ Ek)) as [MS HS].
  destruct (@made_shape std rots u v NE LU SU V ST1 s (MO s (nth_error_In _ _ Ek))) as (c & g & K1 & K2 & K3 & K4 & K5 & K6 & K7 & K8 & K9 & K10).
  destruct (IW k s (p, t) Ek Ew) as (c0 & g0 & f & F1 & F2 & F3 & F4 & F5). rewrite K1 in F1. injection F1 as <-. rewrite K2 in F2. injection F2 as <-. cbn [fst snd] in *.
  assert (EF : f = Fyaml).
  { destruct f; [reflexivity|]. exfalso. destruct (choose_spec p None) as (CY & CV & _). destruct (proj1 CV F4) as [NY _]. apply NY. right. rewrite F3, OM. change ("." +++ "yaml")%string with ".yaml"%string. repeat (rewrite <- append_assoc). apply ends_yaml. }
  subst f. cbn [render] in F5. destruct (yaml_doc g) as [doc|] eqn:ED; [|discriminate]. cbn [bind] in F5. injection F5 as <-.
  exists c, g, doc. split; [exact HS|]. split; [rewrite <- MS; exact K1|]. split; [exact K2|]. split.
  { apply (@shaped_constructor std c g); [|exact K8|exact K2]. apply (ST1 (sl_H s)); [exact HS|]. rewrite MS in K1. exact K1. }
  split; [exists c; auto|]. split; [exact K3|]. split; [|split; [apply W; eapply nth_error_In; eauto|exact ED]].
  intros z I. apply (Permutation_in _ K7) in I. apply In_nth_error in I as (i & I).
  destruct (nth_pair (x := positions c) K8 I) as (q & Q). pose proof (atom_here (lattice c) Q I) as A. apply K5 in A. destruct A as (j & q' & s' & _ & J & _). eapply nth_error_In; eauto.
Qed.
End First.

(** *** both *)
Section Both.
Context (std : cell3 -> cell3) (dump : ydoc -> string) (load : string -> res ydoc) (cbrt : Qc -> Qc) (ops : list (mat Z * vec Qc)) (u : gcell) (v : Z) (a : sapp)
  (cwd : string) (suffix : nat -> string) (fs : files) (ds : string -> bool).
Context (spg : gcell -> list (mat Z * vec Qc)) (wy : gcell -> list string) (psize : cell3 -> nat) (hash : list Z -> Z) (N : nat) (tmp : files -> string -> string -> string)
  (v1 v2 : Z) (n1 n2 : nat).
Hypothesis FU : from_constructor u.
Hypothesis SU : Forall supported (numbers u).
Hypothesis V : (0 < v < 100000)%Z.
Hypothesis ST : standardizes std.
Hypothesis VU : volume (lattice u) <> 0%Qc.
Hypothesis SO : symmetries_of ops u.
Hypothesis MO : Forall (made_of (map fst ops) u v) (s_hnfs a).
Hypothesis OM : s_outmode a = "yaml"%string.
Hypothesis DF : forall i j, i < j < length (s_hnfs a) -> suffix i <> suffix j.
Hypothesis LD : forall d, load (dump d) = Ok d.
Hypothesis S1 : supported v1.
Hypothesis S2 : supported v2.
Hypothesis N12 : v1 <> v2.
Hypothesis N1 : ~ In v1 (numbers u).
Hypothesis N2 : ~ In v2 (numbers u).
Hypothesis FR : fresh_names N tmp.
Hypothesis RD : forall h g, is_hnf v h -> shaped_super std (map fst ops) u h g -> exists gops, oracles_work2 spg hash v1 n1 v2 n2 g gops.
Notation d := (cwd ++ "/SUPLAT_" ++ s_comment a)%string.
Notation fs1 := (o_files (suplat_run std dump a cwd suffix fs ds)).

Lemma flow2 : exists fs0 ps, emptied (ds d) d fs fs0 /\ NoDup ps /\ (forall p, ~ In p ps -> fs1 p = fs0 p) /\
  Forall2 (fun p h => exists g c' doc, shaped_super std (map fst ops) u h g /\ fs1 p = Some (dump doc) /\ document_cell doc = Ok c' /\ rounded g c' /\
    forall a2 cwd2 rd ds2, plain_trun a2 c' v1 v2 -> ds2 (cwd2 ++ "/STRUCTURES_" ++ t_comment a2 ++ "_" ++ rd)%string = false ->
      lists_derivatives2 load cbrt N (t_outmode a2) (map fst ops) u g c' h v1 n1 v2 n2 fs1
        (o_files (tenter_run spg wy psize std hash dump a2 (Z.of_nat n1) (Z.of_nat n2) cwd2 rd tmp fs1 ds2)))
    ps (map sl_H (s_hnfs a)).
Proof.
  destruct (from_constructor_facts FU) as (_ & NEu & Lu & _). assert (V1 : (v < 100000)%Z) by lia.
  pose proof (exact_distinct VU (proj1 SO)) as DU.
  destruct (@first_step2 std dump (map fst ops) u v a cwd suffix fs ds NEu Lu SU V1 ST VU DU MO OM DF) as (fs0 & ps & EM & ND & OT & FS).
  exists fs0, ps. split; [exact EM|]. split; [exact ND|]. split; [exact OT|].
  apply Forall2_nth_intro; [exact (Forall2_len FS)|]. intros kk p h Ekp Ekh. destruct (Forall2_nth FS Ekp Ekh) as (c & g & doc & Hh & E1 & E2 & FG & SF & SG & IG & RF & YD). clear FS ND OT Ekp Ekh.
  assert (SS0 : shaped_super std (map fst ops) u h g) by (exists c; auto). destruct (RD Hh SS0) as (gops & OW).
  destruct (from_constructor_facts FG) as (_ & NEg & Lg & _).
  destruct (document_facts SG Lg NEg YD) as (lat & pos & c' & DC & GN & MW & VW).
  destruct (@second_step2 dump load cbrt spg wy psize std hash g gops N tmp v1 v2 n1 n2 FG OW SG S1 S2 FR LD lat _ pos c' (Permutation_refl _) VW MW GN) as (RDD & SEC).
  exists g, c', doc. split; [exact SS0|]. split; [exact RF|]. split; [exact DC|]. split; [exact RDD|]. intros a2 cwd2 rd ds2 PR DD2.
  assert (Nh : zdet h <> 0%Z). { rewrite (hnf_det Hh). lia. }
  pose proof (proj1 OW) as SY. assert (G1 : ~ In v1 (numbers g)) by auto. assert (G2 : ~ In v2 (numbers g)) by auto.
  destruct (SEC a2 cwd2 rd fs1 ds2 PR DD2) as (out & p2s & TRS & F2). pose proof (TRS (n1, n2) (or_introl eq_refl)) as TRY. cbn [flat_map] in F2. rewrite app_nil_r in F2.
  exists p2s, (out (n1, n2)). split; [|split].
  - intros k FA RM. destruct (F2 k FA RM) as (A & B & C & E). split; [exact A|]. split; [exact B|]. split; [exact C|].
    eapply Forall2_imp; [|exact E]. intros p2 y H M. destruct (H M) as (cy & <- & RA). exact RA.
  - pose proof (frame_volume SF VU Nh) as VG. destruct (frame_self (eq_sym Lu) SO SF) as (q & w & CF).
    pose proof (proj1 TRY) as IN. eapply Forall_impl; [|exact IN]. intros y KF.
    assert (Ly : length y = length (positions g)) by (destruct KF as (? & ? & _ & _ & _ & L & _); congruence).
    pose proof (made_news VG (eq_sym Lg) (proj1 (proj1 SY)) CF Ly (two_choice KF)) as DER.
    destruct (two_diffs N12 G1 G2 KF) as (D1 & D2).
    destruct (made_news_replaced VG (eq_sym Lg) (proj1 (proj1 SY)) CF Ly v1) as (subs1 & L1 & P1).
    destruct (made_news_replaced VG (eq_sym Lg) (proj1 (proj1 SY)) CF Ly v2) as (subs2 & L2 & P2).
    exists (fun z r => crystal_atom (lattice g) (positions g) y z (move q w r)). split.
    + split; [exact DER|]. split; [exists subs1|exists subs2]; split; congruence || assumption.
    + exists q, w. split; [exact (cf_orth CF)|]. split; [exact (cf_atoms CF)|]. intros z r. reflexivity.
  - intros m C LE (D & (subs1 & L1 & P1) & (subs2 & L2 & P2)).
    destruct (@derivative_in_frame u ops h m g [v1; v2] C (eq_sym Lu) VU SO Nh LE SF (eq_sym Lg) (proj1 (proj1 SY)) D) as (x & q & w & OQ & Lx & AT & XC & XS & XN & XE).
    assert (KF : two_fold (numbers g) n1 v1 n2 v2 x).
    { rewrite <- L1, <- L2, <- (XN v1 subs1 P1), <- (XN v2 subs2 P2). apply diffs_two; [congruence|exact N12|exact XS]. }
    destruct TRY as (_ & T & _). destruct (T x KF) as (y & Iy & GE). exists y. split; [exact Iy|].
    destruct (geo_moved FG (proj1 SY) Lx GE) as (q2 & w2 & OQ2 & KC & M2).
    exists (mat_mul q q2), (vadd (vec_mat w q2) w2). split; [now apply orthogonal_mul|].
    assert (MM : forall r, vadd (vec_mat r (mat_mul q q2)) (vadd (vec_mat w q2) w2) = move q2 w2 (move q w r)) by (intros r; symmetry; apply move_move).
    split; intros z r; rewrite MM.
    + rewrite AT. exact (KC z (move q w r)).
    + rewrite XC. apply M2.
Qed.
End Both.
