(** suplat, then ocubiter: both steps together. *)
From Coq Require Import String Permutation.
From Verif Require Import SIO MIO LIO LIO2 LIO3 LIO4 LIO6 SCliRead Base BaseQ LBase LQ SElement MElement LElement SSubst SSym LSym SOcc SEnum MGeneralCell SGeneralCell LGeneralCell MComb MSogen LDup LSogen
  MText LText SLattice SModCell SShape LShape LShape2 SDeriv LDeriv LDeriv2 LDeriv3 SRobust LRobust LFlow LFlow4 SFlow LFlow2 MHnf LHnf SCli MCli SCliApp LCli SCliOne LCli7 LCli8 LCli9 LCli10 PCli2 PCli4 PSuper LOnce.
Set Implicit Arguments.
Unset Strict Implicit.
Open Scope list_scope.
Open Scope nat_scope.
Notation length := List.length.

Lemma shaped_constructor std c g : standardized (labelled (lattice c) (positions c) (length (positions c))) (std (labelled (lattice c) (positions c) (length (positions c)))) ->
  length (positions c) = length (numbers c) -> get_shaped_cell std c = Ok g -> from_constructor g.
Proof.
  intros ST L. unfold get_shaped_cell. rewrite <- L. change (lattice c, positions c, map Z.of_nat (range (length (positions c)))) with (labelled (lattice c) (positions c) (length (positions c))).
  destruct (std _) as [[lat pos] idx]. destruct ST as (_ & LI & _). destruct (mapM _ idx) as [nums|] eqn:E; [|discriminate]. cbn [bind]. intros G.
  exists lat, pos, nums. split; [|exact G]. rewrite LI. symmetry. exact (mapM_length _ _ E).
Qed.

Section First.
Context (std : cell3 -> cell3) (dump : ydoc -> string) (load : string -> res ydoc) (cbrt : Qc -> Qc) (rots : list (mat Z)) (u : gcell) (v : Z) (a : sapp)
  (cwd : string) (suffix : nat -> string) (fs : files) (ds : string -> bool).
Hypothesis NE : positions u <> [].
Hypothesis LU : length (positions u) = length (numbers u).
Hypothesis SU : Forall supported (numbers u).
Hypothesis AU : some_atom (numbers u).
Hypothesis V : (v < 100000)%Z.
Hypothesis ST : standardizes std.
Hypothesis VU : volume (lattice u) <> 0%Qc.
Hypothesis DU : SShape.distinct_sites (lattice u) (positions u).
Hypothesis MO : Forall (made_of rots u v) (s_hnfs a).
Hypothesis OM : s_outmode a = "vasp"%string \/ s_outmode a = "yaml"%string.
Hypothesis NV : s_outmode a = "yaml"%string \/ ~ In 0%Z (numbers u).
Hypothesis DF : forall i j, i < j < length (s_hnfs a) -> suffix i <> suffix j.
Hypothesis LD : forall d, load (dump d) = Ok d.
Notation d := (cwd ++ "/SUPLAT_" ++ s_comment a)%string.
Notation fs1 := (o_files (suplat_run std dump a cwd suffix fs ds)).

Lemma first_step : exists fs0 ps, emptied (ds d) d fs fs0 /\ NoDup ps /\ (forall p, ~ In p ps -> fs1 p = fs0 p) /\ Forall2 (fun p h =>
  exists c g c' lat atoms pos, is_hnf v h /\ to_general_cell (SuperLatticeCell_new rots u h) = Ok c /\ get_shaped_cell std c = Ok g /\
    from_constructor g /\ stands_for u h g /\ Forall supported (numbers g) /\
    from_file load cbrt (Some p) None fs1 = Ok c' /\ GeneralCell_new lat pos (map snd atoms) = Ok c' /\
    mwithin read_tol (lattice g) lat /\ Forall2 (vwithin read_tol) (map fst atoms) pos /\ Permutation atoms (combine (positions g) (numbers g)))
  ps (map sl_H (s_hnfs a)).
Proof.
  pose proof (@all_shaped std u v NE LU VU DU V ST) as ST1.
  assert (X : o_exn (suplat_run std dump a cwd suffix fs ds) = None).
  { apply suplat_run_total; [exact OM|]. intros s I. rewrite Forall_forall in MO. destruct (@made_shape std rots u v NE LU SU V ST1 s (MO s I)) as (c1 & g & E1 & E2 & E3 & _). eauto. }
  destruct (suplat_run_spec std dump a cwd suffix fs ds) as (fs0 & done & rest & ws & E1 & E2 & E3 & E4 & E5 & E6).
  rewrite (E5 X), app_nil_r in E2. subst done. exists fs0, (map fst ws). split; [exact E1|].
  pose proof (aw_each E4 (proj2 (suplat_distinct E3) DF)) as (ND & W & OT). split; [exact ND|]. split; [exact OT|].
  destruct E3 as [LW IW]. apply Forall2_nth_intro; [now rewrite !map_length|]. intros k p h Ep Eh.
  rewrite nth_error_map in Ep, Eh. destruct (nth_error ws k) as [[p0 t]|] eqn:Ew; [|discriminate]. destruct (nth_error (s_hnfs a) k) as [s|] eqn:Ek; [|discriminate].
  cbn in Ep, Eh. injection Ep as <-. injection Eh as <-. rename p0 into p.
  rewrite Forall_forall in MO. pose proof (MO s (nth_error_In _ _ Ek)) as [MS HS].
  destruct (@made_shape std rots u v NE LU SU V ST1 s (MO s (nth_error_In _ _ Ek))) as (c & g & K1 & K2 & K3 & K4 & K5 & K6 & K7 & K8 & K9 & K10).
  destruct (IW k s (p, t) Ek Ew) as (c0 & g0 & f & F1 & F2 & F3 & F4 & F5). rewrite K1 in F1. injection F1 as <-. rewrite K2 in F2. injection F2 as <-. cbn [fst snd] in *.
  assert (SF : stands_for u (sl_H s) g) by (exists c; auto).
  assert (AC : some_atom (numbers c)) by (eapply crystal_some_atom; [exact LU| |exact AU]; intros z x H; apply K5 in H; eauto).
  assert (AG : some_atom (numbers g)) by (destruct AC as (z & I & N); exists z; split; [exact (Permutation_in z (Permutation_sym K7) I)|exact N]).
  assert (PN : p <> ""%string) by (rewrite F3; intros Z; destruct cwd; discriminate Z).
  destruct (@file_made dump load cbrt g p f t fs1 K3 K9 AG PN F4 F5 LD) as (c' & lat & atoms & pos & R1 & R2 & R3 & R4 & R5).
  { apply W. eapply nth_error_In; eauto. }
  exists c, g, c', lat, atoms, pos. split; [exact HS|]. split; [rewrite <- MS; exact K1|]. split; [exact K2|]. split.
  { apply (@shaped_constructor std c g); [|exact K8|exact K2]. apply (ST1 (sl_H s)); [exact HS|]. rewrite MS in K1. exact K1. }
  repeat (split; [assumption|]). apply (atoms_permuted (f := f)); [|exact K9|exact R5]. intros ->. 
  destruct NV as [Y|NZ].
  - exfalso. destruct (choose_spec p None) as (CY & CV & _). destruct (proj1 CV F4) as [NY _]. apply NY. right. rewrite F3, Y. change ("." +++ "yaml")%string with ".yaml"%string. repeat (rewrite <- append_assoc). apply ends_yaml.
  - intros I. apply NZ. apply (Permutation_in _ K7) in I. apply In_nth_error in I as (i & I).
    destruct (nth_pair (x := positions c) K8 I) as (q & Q). pose proof (atom_here (lattice c) Q I) as A. apply K5 in A. destruct A as (j & q' & s' & _ & J & _). eapply nth_error_In; eauto.
Qed.
End First.

(** *** both *)
Section Both.
Context (std : cell3 -> cell3) (dump : ydoc -> string) (load : string -> res ydoc) (cbrt : Qc -> Qc) (ops : list (mat Z * vec Qc)) (u : gcell) (v : Z) (a : sapp)
  (cwd : string) (suffix : nat -> string) (fs : files) (ds : string -> bool).
Context (spg : gcell -> list (mat Z * vec Qc)) (wy : gcell -> list string) (psize : cell3 -> nat) (hash : list Z -> Z) (suffix2 : nat -> string) (len : nat) (ele sp : Z) (n : nat) (Q : gcell -> list (mat Z * vec Qc) -> Prop).
Hypothesis FU : from_constructor u.
Hypothesis SU : Forall supported (numbers u).
Hypothesis AU : some_atom (numbers u).
Hypothesis V : (0 < v < 100000)%Z.
Hypothesis ST : standardizes std.
Hypothesis VU : volume (lattice u) <> 0%Qc.
Hypothesis SO : symmetries_of ops u.
Hypothesis MO : Forall (made_of (map fst ops) u v) (s_hnfs a).
Hypothesis OM : s_outmode a = "vasp"%string \/ s_outmode a = "yaml"%string.
Hypothesis NV : s_outmode a = "yaml"%string \/ ~ In 0%Z (numbers u).
Hypothesis DF : forall i j, i < j < length (s_hnfs a) -> suffix i <> suffix j.
Hypothesis LD : forall d, load (dump d) = Ok d.
Hypothesis SS : supported sp.
Hypothesis LS : forall k, String.length (suffix2 k) = len.
Hypothesis RD : forall h g, is_hnf v h -> shaped_super std (map fst ops) u h g ->
  exists gops, Q g gops /\ sees_symmetry spg g gops /\ enumerable hash suffix2 gops g (k_fold (numbers g) (site_holds (numbers g) ele) n sp).
Notation d := (cwd ++ "/SUPLAT_" ++ s_comment a)%string.
Notation fs1 := (o_files (suplat_run std dump a cwd suffix fs ds)).

Lemma geo_moved g gops x y : from_constructor g -> symmetries_of gops g -> length x = length (positions g) -> geo_equivalent gops (positions g) x y ->
  exists q w, orthogonal q /\ keeps_crystal (cell_of g) q w /\
    forall z r, crystal_atom (lattice g) (positions g) x z r <-> crystal_atom (lattice g) (positions g) y z (move q w r).
Proof.
  intros FG (ND & X & SPC & RG) Lx (Ly & o & Io & GE). destruct (from_constructor_facts FG) as (_ & _ & Lg & _).
  pose proof (proj1 (distinct_keys _) ND) as ND'. destruct (RG o Io) as (q & w & OQ & EQ). exists q, w. split; [exact OQ|]. split.
  { intros z r. apply (op_crystal ND' X Io OQ EQ (x := numbers g) (y := numbers g) (eq_sym Lg) (eq_sym Lg)).
    intros i j p p' P P' K. apply (SPC o i j p p' Io P P'). now apply carries_exactly_carries. }
  assert (Ly' : length y = length (positions g)) by congruence.
  apply (op_crystal ND' X Io OQ EQ Lx Ly'). intros i j p p' P P' K. symmetry. exact (GE i j p p' P P' K).
Qed.

Hypothesis NS : ele <> sp.
Lemma flow : exists fs0 ps, emptied (ds d) d fs fs0 /\ NoDup ps /\ (forall p, ~ In p ps -> fs1 p = fs0 p) /\
  Forall2 (fun p h => exists g c' gops, Q g gops /\ symmetries_of gops g /\ is_hnf v h /\ from_constructor g /\ stands_for u h g /\ shaped_super std (map fst ops) u h g /\
    from_file load cbrt (Some p) None fs1 = Ok c' /\ rounded g c' /\
    forall a2 cwd2 rd ds2, plain_run a2 c' ele sp n -> ds2 (cwd2 ++ "/STRUCTURES_" ++ a_comment a2 ++ "_" ++ rd)%string = false ->
    let fs2 := o_files (biter_run spg wy psize std hash dump a2 cwd2 rd suffix2 fs1 ds2) in
    exists p2s ys, NoDup p2s /\ (forall p2, ~ In p2 p2s -> fs2 p2 = fs1 p2) /\
      Forall2 (fun p2 y => reads_as load cbrt fs2 p2 (decorated c' y) /\ exists C, derivative_with u h ele sp n C /\ shown_as u g y C) p2s ys /\
      transversal (geo_equivalent gops (positions g)) (k_fold (numbers g) (site_holds (numbers g) ele) n sp) ys /\
      forall m C, lat_equiv (map fst ops) m h -> derivative_with u m ele sp n C -> exists y, In y ys /\ shown_as u g y C)
    ps (map sl_H (s_hnfs a)).
Proof.
  destruct (from_constructor_facts FU) as (_ & NEu & Lu & _). assert (V1 : (v < 100000)%Z) by lia.
  pose proof (exact_distinct VU (proj1 SO)) as DU.
  destruct (@first_step std dump load cbrt (map fst ops) u v a cwd suffix fs ds NEu Lu SU AU V1 ST VU DU MO OM NV DF LD) as (fs0 & ps & EM & ND & OT & FS).
  exists fs0, ps. split; [exact EM|]. split; [exact ND|]. split; [exact OT|].
  apply Forall2_nth_intro; [exact (Forall2_len FS)|]. intros kk p h Ekp Ekh. destruct (Forall2_nth FS Ekp Ekh) as (c & g & c' & lat & atoms & pos & Hh & E1 & E2 & FG & SF & SG & RF & GN & MW & VW & PM). clear FS ND OT Ekp Ekh.
  assert (SS0 : shaped_super std (map fst ops) u h g) by (exists c; auto). destruct (RD Hh SS0) as (gops & HQ & SY & EN).
  destruct (@second_step dump load cbrt spg wy psize std hash g gops suffix2 len ele sp n FG SY EN SG SS LS LD lat atoms pos c' PM VW MW GN) as (RDD & SEC).
  exists g, c', gops. split; [exact HQ|]. split; [exact (proj1 SY)|]. split; [exact Hh|]. split; [exact FG|]. split; [exact SF|]. split; [exact SS0|]. split; [exact RF|]. split; [exact RDD|]. intros a2 cwd2 rd ds2 PR DD2. cbv zeta.
  assert (Nh : zdet h <> 0%Z). { rewrite (hnf_det Hh). lia. }
  destruct (from_constructor_facts FG) as (_ & _ & Lg & _).
  destruct (SEC a2 cwd2 rd fs1 ds2 PR DD2) as (p2s & ys & N2 & O2 & TRY & F2). exists p2s, ys. split; [exact N2|]. split; [exact O2|]. split; [|split; [exact TRY|]].
  - apply Forall2_nth_intro; [exact (Forall2_len F2)|]. intros k p2 y Ep Ey. destruct (Forall2_nth F2 Ep Ey) as (cy & <- & RA). split; [exact RA|].
    pose proof (frame_volume SF VU Nh) as VG. destruct (frame_self (eq_sym Lu) SO SF) as (q & w & CF).
    pose proof (proj1 TRY) as IN. rewrite Forall_forall in IN. pose proof (IN y (nth_error_In _ _ Ey)) as KF.
    pose proof (made_derivative_moved VG (eq_sym Lg) (proj1 (proj1 SY)) CF KF) as DER.
    destruct (made_replaced_moved VG (eq_sym Lg) (proj1 (proj1 SY)) CF KF NS) as (subs & LSB & RP & HE).
    exists (fun z r => crystal_atom (lattice g) (positions g) y z (move q w r)). split.
    + split; [exact DER|]. split; [exact HE|]. exists subs. auto.
    + exists q, w. split; [exact (cf_orth CF)|]. split; [exact (cf_atoms CF)|]. intros z r. reflexivity.
  - intros m C LE (D & HE & subs & LN & PP).
    destruct (@derivative_in_frame u ops h m g [sp] C (eq_sym Lu) VU SO Nh LE SF (eq_sym Lg) (proj1 (proj1 SY)) D) as (x & q & w & OQ & Lx & AT & XC & XS & XN & XE).
    assert (KF : k_fold (numbers g) (site_holds (numbers g) ele) n sp x).
    { rewrite <- LN, <- (XN sp subs PP). apply diffs_fold; [congruence| |exact (XE sp ele HE)]. intros i z b A B. destruct (XS i z b A B) as [[<-|[]]|]; auto. }
    destruct TRY as (_ & T & _). destruct (T x KF) as (y & Iy & GE). exists y. split; [exact Iy|].
    destruct (geo_moved FG (proj1 SY) Lx GE) as (q2 & w2 & OQ2 & KC & M2).
    exists (mat_mul q q2), (vadd (vec_mat w q2) w2). split; [now apply orthogonal_mul|].
    assert (MM : forall r, vadd (vec_mat r (mat_mul q q2)) (vadd (vec_mat w q2) w2) = move q2 w2 (move q w r)) by (intros r; symmetry; apply move_move).
    split; intros z r; rewrite MM.
    + rewrite AT. exact (KC z (move q w r)).
    + rewrite XC. apply M2.
Qed.
End Both.
