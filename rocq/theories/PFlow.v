(** C94: the two steps together.  suplat writes one file for each class of superlattices, ocubiter
    run on the cell read from such a file writes one file for each class of decorations; in the
    end every derivative structure of the parent is in some file, and nothing else is. *)
From Coq Require Import String Permutation.
From Verif Require Import SIO MIO SCliRead Base LBase BaseQ LQ SElement SLattice SGeneralCell LGeneralCell MGeneralCell SSym LSym SOcc SSubst SEnum SModCell SShape LShape SRobust LRobust MHnf LHnf LSuper LDup
  MComb MSogen LFrame SDeriv LDeriv LDeriv2 LDeriv3 SOnce LOnce LShape2 SFlow LFlow LFlow2 LFlow3 LFlow4 LFlow5 SCli MCli SCliApp SCliOne LCli LCli7 LCli8 LCli9 LCli10 LCrystal LFrac LCodec LSymDec LMisc LPrim LModCell4 LFilter PHnf PShape PCli PSogen PRobust PCli2 PCli4 PSuper PDeriv POnce.
Open Scope list_scope.
Open Scope nat_scope.
Notation length := List.length.

Theorem C94_flow : forall std psize dump load cbrt sl il u ops com v mode cwd suffix fs ds spg wy hash suffix2 len ele sp n,
  set_order sl -> from_constructor u -> Forall supported (numbers u) -> some_atom (numbers u) -> volume (lattice u) <> 0%Qc -> symmetries_of ops u ->
  (0 < v < 2000)%Z -> mode = "vasp"%string \/ mode = "yaml"%string -> mode = "yaml"%string \/ ~ In 0%Z (numbers u) ->
  psize (spg_cell u) = length (snd (spg_cell u)) -> standardizes std -> (forall d, load (dump d) = Ok d) ->
  enough_suffixes (lat_equiv (map fst ops)) (fun m => Z.abs (zdet m) = v) suffix ->
  supported sp -> ele <> sp -> (forall k, String.length (suffix2 k) = len) ->
  (forall h g, is_hnf v h -> shaped_super std (map fst ops) u h g -> exists gops, oracles_work spg hash suffix2 ele sp n g gops) ->
  exists a, suplat_new psize (hnfs_from_n sl il (map fst ops)) u com v mode = Ok a /\
    let d := (cwd ++ "/SUPLAT_" ++ s_comment a)%string in let fs1 := o_files (suplat_run std dump a cwd suffix fs ds) in
    exists fs0 hs ps, emptied (ds d) d fs fs0 /\ NoDup ps /\ (forall p, ~ In p ps -> fs1 p = fs0 p) /\
      transversal (lat_equiv (map fst ops)) (fun m => Z.abs (zdet m) = v) hs /\
      Forall2 (fun p h => exists g c, shaped_super std (map fst ops) u h g /\ from_file load cbrt (Some p) None fs1 = Ok c /\ rounded g c /\
        forall a2 cwd2 rd ds2, plain_run a2 c ele sp n -> ds2 (cwd2 ++ "/STRUCTURES_" ++ a_comment a2 ++ "_" ++ rd)%string = false ->
          lists_derivatives load cbrt (map fst ops) u g c h ele sp n fs1
            (o_files (biter_run spg wy psize std hash dump a2 cwd2 rd suffix2 fs1 ds2))) ps hs.
Proof.
  intros std psize dump load cbrt sl il u ops com v mode cwd suffix fs ds spg wy hash suffix2 len ele sp n SL FU SU AU VU SO V M NV PS ST LD ES SS NS LS RD.
  pose proof (ops_rot_group (proj1 (proj2 SO))) as RG. assert (V0 : (0 < v)%Z) by lia. assert (V1 : (0 < v < 100000)%Z) by lia.
  destruct (proj1 (C34_one_per_class sl il (map fst ops) u v SL RG) V) as (all & out & _ & E & _ & T).
  unfold suplat_new, is_primitive. rewrite PS, Nat.eqb_refl, E. cbn [bind]. eexists. split; [reflexivity|]. cbv zeta.
  set (a := mkSapp out _ v mode).
  destruct (@flow std dump load cbrt ops u v a cwd suffix fs ds spg wy psize hash suffix2 len ele sp n (fun _ _ => True) FU SU AU V1 ST VU SO
    (@gen3_made sl il (map fst ops) u v out SL V0 E) M NV) as (fs0 & ps & EM & ND & OT & F); auto.
  { intros i j H. apply (ES (map sl_H out) T). now rewrite map_length. }
  { intros h g H G. destruct (RD h g H G) as (gops & A & B). exists gops. auto. }
  exists fs0, (map sl_H out), ps. split; [exact EM|]. split; [exact ND|]. split; [exact OT|]. split; [exact T|].
  eapply LBase.Forall2_imp; [|exact F]. intros p h (g & c & gops & _ & _ & _ & _ & _ & G & RF & RO & W). exists g, c. split; [exact G|]. split; [exact RF|]. split; [exact RO|].
  intros a2 cwd2 rd ds2 P D2. destruct (W a2 cwd2 rd ds2 P D2) as (p2s & ys & W1 & W2 & W3 & _ & W5). exists p2s, ys. auto.
Qed.
Print Assumptions C94_flow.

(** The option for planar superlattices. *)
Theorem C94_flow_plane : forall std psize dump load cbrt sl il u ops com v mode cwd suffix fs ds spg wy hash suffix2 len ele sp n,
  set_order sl -> from_constructor u -> Forall supported (numbers u) -> some_atom (numbers u) -> volume (lattice u) <> 0%Qc -> symmetries_of ops u ->
  (0 < v < 2000)%Z -> mode = "vasp"%string \/ mode = "yaml"%string -> mode = "yaml"%string \/ ~ In 0%Z (numbers u) ->
  psize (spg_cell u) = length (snd (spg_cell u)) -> standardizes std -> (forall d, load (dump d) = Ok d) ->
  enough_suffixes (lat_equiv (map fst ops)) (fun m => in_plane m /\ Z.abs (zdet m) = v) suffix ->
  supported sp -> ele <> sp -> (forall k, String.length (suffix2 k) = len) ->
  (forall h g, is_hnf v h -> shaped_super std (map fst ops) u h g -> exists gops, oracles_work spg hash suffix2 ele sp n g gops) ->
  exists a, suplat_new psize (hnfs_from_n_2d sl il (map fst ops)) u com v mode = Ok a /\
    let d := (cwd ++ "/SUPLAT_" ++ s_comment a)%string in let fs1 := o_files (suplat_run std dump a cwd suffix fs ds) in
    exists fs0 hs ps, emptied (ds d) d fs fs0 /\ NoDup ps /\ (forall p, ~ In p ps -> fs1 p = fs0 p) /\
      transversal (lat_equiv (map fst ops)) (fun m => in_plane m /\ Z.abs (zdet m) = v) hs /\
      Forall2 (fun p h => exists g c, shaped_super std (map fst ops) u h g /\ from_file load cbrt (Some p) None fs1 = Ok c /\ rounded g c /\
        forall a2 cwd2 rd ds2, plain_run a2 c ele sp n -> ds2 (cwd2 ++ "/STRUCTURES_" ++ a_comment a2 ++ "_" ++ rd)%string = false ->
          lists_derivatives load cbrt (map fst ops) u g c h ele sp n fs1
            (o_files (biter_run spg wy psize std hash dump a2 cwd2 rd suffix2 fs1 ds2))) ps hs.
Proof.
  intros std psize dump load cbrt sl il u ops com v mode cwd suffix fs ds spg wy hash suffix2 len ele sp n SL FU SU AU VU SO V M NV PS ST LD ES SS NS LS RD.
  pose proof (ops_rot_group (proj1 (proj2 SO))) as RG. assert (V0 : (0 < v)%Z) by lia. assert (V1 : (0 < v < 100000)%Z) by lia.
  destruct (C35_plane_classes sl il (map fst ops) u v SL RG V) as (all & out & _ & E & _ & T).
  unfold suplat_new, is_primitive. rewrite PS, Nat.eqb_refl, E. cbn [bind]. eexists. split; [reflexivity|]. cbv zeta.
  set (a := mkSapp out _ v mode).
  destruct (@flow std dump load cbrt ops u v a cwd suffix fs ds spg wy psize hash suffix2 len ele sp n (fun _ _ => True) FU SU AU V1 ST VU SO
    (@gen2_made sl il (map fst ops) u v out SL V0 E) M NV) as (fs0 & ps & EM & ND & OT & F); auto.
  { intros i j H. apply (ES (map sl_H out) T). now rewrite map_length. }
  { intros h g H G. destruct (RD h g H G) as (gops & A & B). exists gops. auto. }
  exists fs0, (map sl_H out), ps. split; [exact EM|]. split; [exact ND|]. split; [exact OT|]. split; [exact T|].
  eapply LBase.Forall2_imp; [|exact F]. intros p h (g & c & gops & _ & _ & _ & _ & _ & G & RF & RO & W). exists g, c. split; [exact G|]. split; [exact RF|]. split; [exact RO|].
  intros a2 cwd2 rd ds2 P D2. destruct (W a2 cwd2 rd ds2 P D2) as (p2s & ys & W1 & W2 & W3 & _ & W5). exists p2s, ys. auto.
Qed.
Print Assumptions C94_flow_plane.

(** If the operations are all symmetries of the parent, and of the saved cells, a derivative
    structure without shorter period is found in one file of one run only. *)
Theorem C94_once : forall std psize dump load cbrt sl il u ops com v mode cwd suffix fs ds spg wy hash suffix2 len ele sp n,
  set_order sl -> from_constructor u -> Forall supported (numbers u) -> some_atom (numbers u) -> volume (lattice u) <> 0%Qc -> symmetries_of ops u ->
  smallest (cell_of u) -> all_symmetries ops (cell_of u) ->
  (0 < v < 2000)%Z -> mode = "vasp"%string \/ mode = "yaml"%string -> mode = "yaml"%string \/ ~ In 0%Z (numbers u) ->
  psize (spg_cell u) = length (snd (spg_cell u)) -> standardizes std -> (forall d, load (dump d) = Ok d) ->
  enough_suffixes (lat_equiv (map fst ops)) (fun m => Z.abs (zdet m) = v) suffix ->
  supported sp -> ele <> sp -> (forall k, String.length (suffix2 k) = len) ->
  (forall h g, is_hnf v h -> shaped_super std (map fst ops) u h g -> exists gops, all_symmetries gops (cell_of g) /\ oracles_work spg hash suffix2 ele sp n g gops) ->
  exists a, suplat_new psize (hnfs_from_n sl il (map fst ops)) u com v mode = Ok a /\
    let fs1 := o_files (suplat_run std dump a cwd suffix fs ds) in
    exists hs ps, Forall2 (fun p h => exists g, shaped_super std (map fst ops) u h g /\ exists c, from_file load cbrt (Some p) None fs1 = Ok c /\ rounded g c) ps hs /\
      forall m C, Z.abs (zdet m) = v -> derivative_with u m ele sp n C -> primitive_along (lattice u) m C ->
      exists k p h g c, nth_error ps k = Some p /\ nth_error hs k = Some h /\ shaped_super std (map fst ops) u h g /\ from_file load cbrt (Some p) None fs1 = Ok c /\
        (forall k' h' g' y, nth_error hs k' = Some h' -> shaped_super std (map fst ops) u h' g' -> shown_as u g' y C -> k' = k) /\
        forall a2 cwd2 rd ds2, plain_run a2 c ele sp n -> ds2 (cwd2 ++ "/STRUCTURES_" ++ a_comment a2 ++ "_" ++ rd)%string = false ->
        let fs2 := o_files (biter_run spg wy psize std hash dump a2 cwd2 rd suffix2 fs1 ds2) in
        exists p2s ys, NoDup p2s /\ (forall p2, ~ In p2 p2s -> fs2 p2 = fs1 p2) /\ Forall2 (fun p2 y => reads_as load cbrt fs2 p2 (decorated c y)) p2s ys /\
          exists j, (exists y, nth_error ys j = Some y /\ shown_as u g y C) /\ forall j' y', nth_error ys j' = Some y' -> shown_as u g y' C -> j' = j.
Proof.
  intros std psize dump load cbrt sl il u ops com v mode cwd suffix fs ds spg wy hash suffix2 len ele sp n SL FU SU AU VU SO SM AS V M NV PS ST LD ES SS NS LS RD.
  pose proof (ops_rot_group (proj1 (proj2 SO))) as RG. assert (V0 : (0 < v)%Z) by lia. assert (V1 : (0 < v < 100000)%Z) by lia.
  destruct (proj1 (C34_one_per_class sl il (map fst ops) u v SL RG) V) as (all & out & _ & E & _ & T).
  unfold suplat_new, is_primitive. rewrite PS, Nat.eqb_refl, E. cbn [bind]. eexists. split; [reflexivity|]. cbv zeta.
  set (a := mkSapp out _ v mode).
  destruct (@flow std dump load cbrt ops u v a cwd suffix fs ds spg wy psize hash suffix2 len ele sp n (fun g gops => all_symmetries gops (cell_of g)) FU SU AU V1 ST VU SO
    (@gen3_made sl il (map fst ops) u v out SL V0 E) M NV) as (fs0 & ps & EM & ND & OT & F); auto.
  { intros i j H. apply (ES (map sl_H out) T). now rewrite map_length. }
  exists (map sl_H out), ps. split.
  { eapply LBase.Forall2_imp; [|exact F]. intros p h (g & c & gops & _ & _ & _ & _ & _ & G & RF & RO & W). exists g. split; [exact G|]. exists c. auto. }
  intros m C Vm DW PA. change (s_hnfs a) with out in F.
  assert (SAME : forall k h g y, nth_error (map sl_H out) k = Some h -> shaped_super std (map fst ops) u h g -> shown_as u g y C -> lat_equiv (map fst ops) m h).
  { intros k h g y Ek G (q & w & OQ & AT & XC). destruct (nth_pair (x := ps) (Forall2_len F) Ek) as (p & Ep).
    destruct (Forall2_nth F Ep Ek) as (g0 & c & gops & _ & SG & Hh & FG & SF & (c1 & C1 & C2) & _).
    destruct G as (c2 & D1 & D2). rewrite C1 in D1. injection D1 as <-. rewrite C2 in D2. injection D2 as <-.
    assert (Nh : zdet h <> 0%Z) by (rewrite (hnf_det Hh); lia). assert (Vh : Z.abs (zdet m) = Z.abs (zdet h)) by (rewrite (hnf_det Hh); lia).
    exact (proj1 (shown_periods FU VU SM SO AS SF Nh Vh PA OQ AT XC)). }
  destruct (proj1 (proj2 T) m Vm) as (h & Ih & LE). apply In_nth_error in Ih as (k & Ek). destruct (nth_pair (x := ps) (Forall2_len F) Ek) as (p & Ep).
  destruct (Forall2_nth F Ep Ek) as (g & c & gops & AG & SG & Hh & FG & SF & G & RF & RO & W).
  assert (Nh : zdet h <> 0%Z) by (rewrite (hnf_det Hh); lia). assert (Vh : Z.abs (zdet m) = Z.abs (zdet h)) by (rewrite (hnf_det Hh); lia).
  exists k, p, h, g, c. split; [exact Ep|]. split; [exact Ek|]. split; [exact G|]. split; [exact RF|]. split.
  { intros k' h' g' y Ek' G' SH. pose proof (SAME k' h' g' y Ek' G' SH) as LE'.
    assert (HH : lat_equiv (map fst ops) h' h) by (eapply lat_equiv_trans; [exact RG| |exact LE]; apply lat_equiv_sym; assumption).
    destruct T as (_ & _ & T). rewrite FOP_nth in T. destruct (Nat.lt_trichotomy k' k) as [L|[L|L]]; [|exact L|]; exfalso.
    - exact (proj1 (T _ _ _ _ L Ek' Ek) HH).
    - exact (proj2 (T _ _ _ _ L Ek Ek') HH). }
  intros a2 cwd2 rd ds2 P D2. cbv zeta. destruct (W a2 cwd2 rd ds2 P D2) as (p2s & ys & W1 & W2 & W3 & W4 & W5). exists p2s, ys. split; [exact W1|]. split; [exact W2|].
  split; [eapply LBase.Forall2_imp; [|exact W3]; intros p2 y [K _]; exact K|].
  destruct (W5 m C LE DW) as (y & Iy & SH). apply In_nth_error in Iy as (j & Ej). exists j. split; [exists y; auto|]. intros j' y' Ej' SH'.
  destruct W4 as (FD & _ & W4). rewrite FOP_nth in W4. rewrite Forall_forall in FD.
  destruct (from_constructor_facts FG) as (_ & _ & Lg & _).
  assert (LY : forall x, In x ys -> length x = length (positions g)) by (intros x I; destruct (FD x I) as (S & _ & L & _); congruence).
  pose proof (LY y (nth_error_In _ _ Ej)) as L1. pose proof (LY y' (nth_error_In _ _ Ej')) as L2.
  destruct (Nat.lt_trichotomy j' j) as [L|[L|L]]; [|exact L|]; exfalso.
  - apply (proj1 (W4 _ _ _ _ L Ej' Ej)). exact (shown_once FU VU SM SO AS FG SF Nh Vh PA SG AG L2 L1 SH' SH).
  - apply (proj1 (W4 _ _ _ _ L Ej Ej')). exact (shown_once FU VU SM SO AS FG SF Nh Vh PA SG AG L1 L2 SH SH').
Qed.
Print Assumptions C94_once.

(** ** Example: the parent with one boron atom of C88, doubled; spglib turns every saved cell by
    90 degrees, and of a cell read from a file it reports the translations between the positions
    as they were read, and the inversions. *)
Notation lrots := (map fst (both lop)).
Definition saved (h : mat Z) : list gcell :=
  match to_general_cell (SuperLatticeCell_new lrots lop h) with Ok c => match get_shaped_cell t_std c with Ok g => [g] | Raise _ => [] end | Raise _ => [] end.
Lemma saved_ok h g : shaped_super t_std lrots lop h g -> saved h = [g].
Proof. intros (c & E & F). unfold saved. now rewrite E, F. Qed.
Definition tol4 : Qc := Q2Qc (4 # 10000).
Definition fine (g : gcell) : bool :=
  all_boron2 g && forallb (marginb tol4) (positions g) && (length (positions g) =? 2) && match positions g with [a; b] => vQc_eqb a v0 || vQc_eqb b v0 | _ => false end.
Lemma saved_fine h g : is_hnf 2 h -> shaped_super t_std lrots lop h g -> fine g = true.
Proof.
  intros H G. apply lop_forms in H. apply saved_ok in G.
  assert (A : forallb (fun h => forallb fine (saved h)) (match hnfs_from_n_dups first_order lrots lop 2 with Ok l => map sl_H l | Raise _ => [] end) = true) by (vm_compute; reflexivity).
  rewrite forallb_forall in A. specialize (A h H). rewrite G in A. cbn [forallb] in A. now rewrite andb_true_r in A.
Qed.
Lemma fine_numbers g : fine g = true -> numbers g = [5; 5]%Z.
Proof.
  unfold fine, all_boron2. rewrite !andb_true_iff. intros [[[[[[_ _] A] B] _] C] _]. apply Nat.eqb_eq in B, C. rewrite C in B. rewrite forallb_forall in A.
  destruct (numbers g) as [|a [|b [|d l]]]; try discriminate B. pose proof (A a (or_introl eq_refl)). pose proof (A b (or_intror (or_introl eq_refl))). repeat f_equal; lia.
Qed.
Lemma one_of_two x : k_fold [5; 5]%Z (site_holds [5; 5]%Z 5) 1 6 x -> In x [[6; 5]; [5; 6]]%Z.
Proof.
  intros (S & (N & L & P) & LX & H). destruct S as [|i [|j S]]; try discriminate L. destruct x as [|a [|b [|d x]]]; try discriminate LX.
  pose proof (P i (or_introl eq_refl)) as B. destruct (H 0 5%Z eq_refl) as [H1 H2]. destruct (H 1 5%Z eq_refl) as [H3 H4]. cbn [nth_error In] in *.
  destruct i as [|[|i]]; [| |exfalso; unfold site_holds in B; destruct i; discriminate B].
  - left. assert (A : Some a = Some 6%Z) by auto. assert (D : Some b = Some 5%Z) by (apply H4; intros [?|[]]; discriminate). now injection A as ->; injection D as ->.
  - right. left. assert (A : Some a = Some 5%Z) by (apply H2; intros [?|[]]; discriminate). assert (D : Some b = Some 6%Z) by auto. now injection A as ->; injection D as ->.
Qed.
Lemma geo_self ops g x : from_constructor g -> symmetries_of ops g -> length x = length (numbers g) -> geo_equivalent ops (positions g) x x.
Proof.
  intros FG SG Lx. destruct (from_constructor_facts FG) as (_ & NE & _).
  destruct (get_symmetry_permutation ops g) as [perms|] eqn:EP; [|rewrite mapM_gsp_ok in EP by exact NE; discriminate].
  assert (EO : OccupyGenerator_new ops [] g = Ok (mkOcc g perms [])) by (unfold OccupyGenerator_new; now rewrite EP).
  pose proof SG as (DS & GRP & SP & RG). destruct FG as (lat & pos & nums & L & E).
  destruct (@sound_facts ops [] g (mkOcc g perms [])) as (_ & _ & _ & PG & _ & _ & GE).
  { split; [exists lat, pos, nums; auto|]. repeat (split; [assumption|]). split; [|exact EO].
    intros o1 i j p p' Io P P' K. apply (SP o1 i j p p' Io P P'). now apply carries_exactly_carries. }
  apply GE; [exact Lx|]. apply (equivalent_refl PG). exact Lx.
Qed.
Lemma row_both c o : In o (both c) -> row_sums 1 (fst o).
Proof. intros I. apply in_app_or in I as [I|I]; apply in_map_iff in I as (p & <- & _); vm_compute; repeat split; discriminate. Qed.
Lemma both_near t a b : Forall2 (near t) (positions a) (positions b) -> Forall2 (near_op t) (both a) (both b).
Proof.
  intros F. unfold both. apply Forall2_app; induction F; cbn [map]; constructor; auto; split; auto.
Qed.
Lemma fine_oracles g : from_constructor g -> fine g = true -> oracles_work both poly t_suffix 5 6 1 g (both g).
Proof.
  intros FG F. pose proof (fine_numbers g F) as N. unfold fine in F. rewrite !andb_true_iff in F. destruct F as [[[A M] L] _]. apply Nat.eqb_eq in L.
  pose proof (both_ok g A) as SG. split; [split; [exact SG|]|split; [|split]].
  - exists tol4, 1%Z. split; [apply Forall_forall; intros p I; apply marginb_ok; rewrite forallb_forall in M; auto|]. split; [intros o; apply row_both|].
    split; [vm_compute; discriminate|]. intros c (_ & _ & F). exists read_tol. split; [now apply both_near|vm_compute; discriminate].
  - apply kfold_poly. constructor; [lia|]. now apply boron2_bounds.
  - rewrite N. intros x H. apply one_of_two in H. destruct H as [<-|[<-|[]]]; exists 6%Z; (split; [cbn; auto|discriminate]).
  - intros ys (FD & _ & O). rewrite N in FD. assert (LL : length ys <= 2).
    { apply (NoDup_incl_length (l := ys) (l' := [[6; 5]; [5; 6]]%Z)).
      - rewrite FOP_nth in O. apply NoDup_nth_error. intros i j Hi E. destruct (nth_error ys i) as [x|] eqn:Ei; [|now apply nth_error_None in Ei; lia].
        assert (Lx : length x = length (numbers g)). { rewrite Forall_forall in FD. apply nth_error_In in Ei. destruct (FD x Ei) as (_ & _ & Lx & _). now rewrite Lx, N. }
        pose proof (geo_self (both g) g x FG SG Lx) as GS.
        destruct (Nat.lt_trichotomy i j) as [K|[K|K]]; [|exact K|]; exfalso.
        + exact (proj1 (O _ _ _ _ K Ei (eq_sym E)) GS).
        + exact (proj1 (O _ _ _ _ K (eq_sym E) Ei) GS).
      - intros x I. rewrite Forall_forall in FD. now apply one_of_two, FD. }
    intros i j H. assert (K : i = 0 /\ j = 1) by lia. destruct K as [-> ->]. discriminate.
Qed.

(** The symmetries reported are all there are, in the turned cells too. *)
Lemma both_complete_turned h g : is_hnf 2 h -> stands_for lop h g -> atom_at (cell_of g) 5%Z v0 -> all_symmetries (both g) (cell_of g).
Proof.
  intros Hh SF A0 q w OQ K _. destruct (@frame_self lop (both lop) h g eq_refl lop_symmetries SF) as (q0 & w0 & CF). pose proof (cf_orth CF) as O0.
  set (q1 := mat_mul (mat_mul q0 q) (flip q0)).
  set (w1 := vadd (vec_mat (vadd (vec_mat w0 q) w) (flip q0)) (vec_mat (vsub v0 w0) (flip q0))).
  assert (FM : forall r, unmove q0 w0 (move q w (move q0 w0 r)) = move q1 w1 r) by (intros r; rewrite unmove_as_move, (move_move q0), (move_move (mat_mul q0 q)); reflexivity).
  assert (O1 : orthogonal q1) by (apply orthogonal_mul; [now apply orthogonal_mul|now apply orthogonal_flip]).
  assert (K1 : keeps_crystal (cell_of lop) q1 w1).
  { intros z r. fold (move q1 w1 r). rewrite <- FM, (cf_atoms CF z (unmove _ _ _)), move_unmove by exact O0. rewrite (cf_atoms CF z r). apply K. }
  destruct (lop_isometry q1 w1 O1 K1) as (_ & r & R & Q).
  assert (E : forall x, vec_mat x q = op_image r v0 x).
  { assert (E1 : forall x, vec_mat x q1 = op_image r v0 x).
    { intros x. destruct (inv_spec lop_volume) as (i & _ & I & _). rewrite <- (I x). change (lattice lop) with (matZ lopz). rewrite Q.
      destruct R as [-> | ->]; rewrite ?op_image_zid, ?op_image_zneg, ?vadd_0; [reflexivity|]. now rewrite <- LModCell4.vec_mat_sub, vec_mat_0. }
    intros x. specialize (E1 (vec_mat x (flip q0))). unfold q1 in E1. rewrite <- !vec_mat_mul, back_and_there in E1 by exact O0.
    apply (f_equal (fun y => vec_mat y q0)) in E1. rewrite back_and_there in E1 by exact O0. rewrite E1.
    destruct R as [-> | ->]; rewrite ?op_image_zid, ?op_image_zneg, ?vadd_0; [now apply back_and_there|]. now rewrite <- LModCell4.vec_mat_sub, vec_mat_0, back_and_there. }
  assert (A : atom_at (cell_of g) 5%Z w) by (apply (proj1 (K _ _)) in A0; now rewrite vec_mat_0, vadd_0_l in A0).
  destruct A as (i & p0 & s & P & _ & W). exists (r, p0), s. split.
  - apply in_or_app. apply nth_error_In in P. destruct R as [-> | ->]; [left|right]; exact (in_map _ _ _ P).
  - intros p. cbn [cell_of fst snd]. rewrite E, W. destruct R as [-> | ->].
    + rewrite !op_image_zid, vadd_0, <- vec_mat_add, vadd_assoc. reflexivity.
    + rewrite !op_image_zneg, !vec_mat_add, <- !LModCell4.vec_mat_sub. generalize (vec_mat p (lattice g)), (vec_mat p0 (lattice g)), (vec_mat (vecZ s) (lattice g)).
      clear. intros [? ? ?] [? ? ?] [? ? ?]. unfold vadd, vsub, v0. cbn [BaseQ.vx BaseQ.vy BaseQ.vz]. f_equal; ring.
Qed.

Lemma made_facts h : is_hnf 2 h -> exists g, shaped_super t_std lrots lop h g /\ from_constructor g /\ stands_for lop h g.
Proof.
  intros H. destruct (from_constructor_facts lop_made) as (_ & NE & LU & _).
  assert (SU : Forall supported (numbers lop)) by (repeat constructor; lia). pose proof (exact_distinct lop_volume (proj1 lop_symmetries)) as DU.
  assert (ST : standardizes t_std) by (apply C77_assumption_met, orth77).
  assert (ST1 := @all_shaped t_std lop 2%Z NE LU lop_volume DU ltac:(lia) ST).
  set (s := SuperLatticeCell_new lrots lop h). assert (MO : made_of lrots lop 2 s) by (split; [reflexivity|exact H]).
  destruct (@made_shape t_std lrots lop 2 NE LU SU ltac:(lia) ST1 s MO) as (c & g & K1 & K2 & K3 & K4 & K5 & K6 & K7 & K8 & K9 & K10).
  exists g. split; [exists c; auto|]. split; [|exists c; auto]. apply (@shaped_constructor t_std c g); [|exact K8|exact K2]. apply (ST1 h); [exact H|exact K1].
Qed.
Lemma vQc_eqb_ok a b : vQc_eqb a b = true -> a = b.
Proof. destruct a, b. unfold vQc_eqb. cbn [BaseQ.vx BaseQ.vy BaseQ.vz]. rewrite !andb_true_iff. intros [[A B] C]. apply Qceqb_eq in A, B, C. now subst. Qed.
Lemma saved_all h g : is_hnf 2 h -> shaped_super t_std lrots lop h g -> all_symmetries (both g) (cell_of g) /\ oracles_work both poly t_suffix 5 6 1 g (both g).
Proof.
  intros H G. destruct (made_facts h H) as (g' & G' & FG & SF). apply saved_ok in G' as E. rewrite (saved_ok h g G) in E. injection E as <-. clear G'.
  pose proof (saved_fine h g H G) as F. split; [|now apply fine_oracles]. apply (both_complete_turned h g H SF).
  pose proof (fine_numbers g F) as N. unfold fine in F. rewrite !andb_true_iff in F. destruct F as [_ F].
  assert (Z0 : forall i, nth_error (positions g) i = Some v0 -> i < 2 -> atom_at (cell_of g) 5%Z v0).
  { intros i P L. exists i, v0, (V3 0 0 0)%Z. split; [exact P|]. split; [cbn [cell_of snd]; rewrite N; destruct i as [|[|i]]; [reflexivity|reflexivity|lia]|].
    change (vecZ (V3 0 0 0)%Z) with v0. rewrite vadd_0. symmetry. apply vec_mat_0. }
  destruct (positions g) as [|a [|b [|d l]]]; try discriminate F. apply orb_true_iff in F as [F|F]; apply vQc_eqb_ok in F; subst.
  - apply (Z0 0); [reflexivity|lia].
  - apply (Z0 1); [reflexivity|lia].
Qed.
Lemma lop_suffixes (D : mat Z -> Prop) : (forall m, D m -> Z.abs (zdet m) = 2%Z) -> enough_suffixes (lat_equiv lrots) D t_suffix.
Proof.
  pose proof (ops_rot_group (proj1 (proj2 lop_symmetries))) as RG. intros DM ys (F0 & X & O).
  assert (F : Forall (fun m => Z.abs (zdet m) = 2%Z) ys) by (eapply Forall_impl; [exact DM|exact F0]).
  destruct (proj1 (C34_one_per_class first_order true lrots lop 2 first_order_ok RG) ltac:(lia)) as (all & out & _ & E & _ & (F' & X' & _)).
  assert (K : match hnfs_from_n first_order true lrots lop 2 with Ok l => length l | Raise _ => 0 end = 7) by (vm_compute; reflexivity). rewrite E in K.
  assert (L : length ys <= 7).
  { rewrite <- K, <- (map_length sl_H out). eapply LMisc.transversal_le; [|exact F|exact F'|exact O|].
    - intros a b c _ _ _ H1 H2. eapply lat_equiv_trans; [exact RG|exact H1|]. apply lat_equiv_sym; [exact RG|exact H2].
    - intros a I. apply X'. rewrite Forall_forall in F. now apply F. }
  intros i j H. assert (H' : i < j < 7) by lia. clear - H'. do 7 (destruct i as [|i]; [do 7 (destruct j as [|j]; [first [lia | discriminate]|]); lia|]). lia.
Qed.
Example C94_ex : set_order first_order /\ from_constructor lop /\ Forall supported (numbers lop) /\ some_atom (numbers lop) /\ volume (lattice lop) <> 0%Qc /\
  symmetries_of (both lop) lop /\ smallest (cell_of lop) /\ all_symmetries (both lop) (cell_of lop) /\ ~ In 0%Z (numbers lop) /\
  x_psize (spg_cell lop) = length (snd (spg_cell lop)) /\ standardizes t_std /\ (forall d, c_load (c_dump d) = Ok d) /\
  enough_suffixes (lat_equiv (map fst (both lop))) (fun m => Z.abs (zdet m) = 2%Z) t_suffix /\
  enough_suffixes (lat_equiv (map fst (both lop))) (fun m => in_plane m /\ Z.abs (zdet m) = 2%Z) t_suffix /\
  supported 6 /\ (forall k, String.length (t_suffix k) = 1) /\
  (forall h g, is_hnf 2 h -> shaped_super t_std (map fst (both lop)) lop h g -> exists gops, all_symmetries gops (cell_of g) /\ oracles_work both poly t_suffix 5 6 1 g gops) /\
  Z.abs (zdet layers_m) = 2%Z /\ derivative_with lop layers_m 5 6 1 (slabs 6 5) /\ primitive_along (lattice lop) layers_m (slabs 6 5).
Proof.
  split; [exact first_order_ok|]. split; [exact lop_made|]. split; [repeat constructor; lia|]. split; [exists 5%Z; split; [now left|discriminate]|]. split; [exact lop_volume|].
  split; [exact lop_symmetries|]. split; [exact lop_smallest|]. split; [exact lop_complete|]. split; [intros [?|[]]; discriminate|]. split; [reflexivity|].
  split; [apply C77_assumption_met, orth77|]. split; [exact c_load_dump|]. split; [now apply lop_suffixes|]. split; [now apply lop_suffixes|].
  split; [unfold supported; lia|]. split; [reflexivity|].
  split; [intros h g H G; exists (both g); exact (saved_all h g H G)|]. split; [reflexivity|]. split; [|apply slabs_primitive; discriminate].
  split; [apply slabs_derivative; cbn; auto|]. split; [intros v [(s & -> & _) _]; apply lop_atoms; eauto|]. exists [v0]. split; [reflexivity|]. apply slabs_even; discriminate.
Qed.
(** The two commands, run one after the other. *)
Definition x_run (c : gcell) : app := mkApp c "y" 5 6 1 None false "vasp" false.
Definition two_step : option (list Z * option (list Z)) :=
  match suplat_new x_psize (hnfs_from_n first_order true (map fst (both lop))) lop (Some "x"%string) 2 "vasp" with
  | Ok a =>
    let fs1 := o_files (suplat_run t_std c_dump a "/w" t_suffix (fun _ => None) (fun _ => false)) in
    match from_file c_load (fun x => x) (Some "/w/SUPLAT_x/SUPLAT_2_B.vasp"%string) None fs1 with
    | Ok c =>
      let fs2 := o_files (biter_run both x_wy x_psize t_std poly c_dump (x_run c) "/w" "ABCDE" t_suffix fs1 (fun _ => false)) in
      Some (numbers c, match from_file c_load (fun x => x) (Some "/w/STRUCTURES_y_ABCDE/STRUCTURE_B1C1_A.vasp"%string) None fs2 with Ok g => Some (numbers g) | Raise _ => None end)
    | Raise _ => None end
  | Raise _ => None end.
Example C94_ex_run : two_step = Some ([5; 5]%Z, Some [6; 5]%Z) /\ forall c, plain_run (x_run c) c 5 6 1.
Proof. split; [vm_compute; reflexivity|]. intros c. repeat split. now left. Qed.
