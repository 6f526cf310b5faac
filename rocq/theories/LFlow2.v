(** What ocubiter finds in a file written by suplat. *)
From Coq Require Import String Permutation.
From Verif Require Import SIO MIO LIO LIO2 LIO3 LIO4 LIO6 SCliRead Base BaseQ LBase LQ SElement MElement LElement SSubst SSym LSym SOcc SEnum MGeneralCell SGeneralCell LGeneralCell MComb MSogen LDup LSogen
  MText LText SLattice SModCell SShape LShape LShape2 SDeriv LDeriv LDeriv2 LDeriv3 SRobust LRobust LFlow SFlow MHnf SCli MCli SCliApp LCli SCliOne LCli7 LCli8 LCli9 LCli10 PCli4 PSuper.
Set Implicit Arguments.
Unset Strict Implicit.
Open Scope list_scope.
Open Scope nat_scope.
Notation length := List.length.

(** *** reading *)
Section F.
Context (dump : ydoc -> string) (load : string -> res ydoc) (cbrt : Qc -> Qc).
Lemma file_made g p f t fs : Forall supported (numbers g) -> length (positions g) = length (numbers g) -> some_atom (numbers g) ->
  p <> ""%string -> choose p None = Some f -> render dump f g = Ok t -> (forall d, load (dump d) = Ok d) -> fs p = Some t ->
  exists c lat atoms pos, from_file load cbrt (Some p) None fs = Ok c /\ GeneralCell_new lat pos (map snd atoms) = Ok c /\
    mwithin read_tol (lattice g) lat /\ Forall2 (vwithin read_tol) (map fst atoms) pos /\
    match f with Fyaml => atoms = combine (positions g) (numbers g) | Fvasp => grouped (combine (positions g) (numbers g)) atoms end.
Proof.
  intros S L NZ NE C R LD E.
  assert (RF : from_file load cbrt (Some p) None fs = read_text load cbrt f t) by (unfold from_file; rewrite C, E; reflexivity).
  destruct f; cbn [render] in R.
  - destruct (C55_lemma S) as (d & lat & pos & Ed & _ & Rd & M & P). rewrite Ed in R. cbn [bind] in R. injection R as <-.
    assert (LP : length pos = length (numbers g)) by (rewrite <- (Forall2_len P); exact L).
    assert (NEp : pos <> []). { intros ->. destruct NZ as (z & I & _). destruct (numbers g); [destruct I|discriminate]. }
    destruct (make_cell lat NEp LP) as (c & G & _). exists c, lat, (combine (positions g) (numbers g)), pos.
    rewrite (combine_snd L), (combine_fst L). split; [|auto]. rewrite RF. cbn [read_text]. rewrite LD. cbn [bind]. unfold yaml_get_cell. rewrite Rd. exact G.
  - destruct (VaspOutput_new_ok 1 S L) as (names & zs & syms & EV & W). rewrite EV in R. cbn [bind] in R. injection R as <-.
    destruct (C52_lemma cbrt true S L (zoom:=1%Z) ltac:(lia) NZ EV) as (lat & atoms & pos & Rs & M & G & P). rewrite mat_times_one in Rs.
    assert (LP : length pos = length (map snd atoms)) by (rewrite <- (Forall2_len P), !map_length; reflexivity).
    assert (NEp : pos <> []).
    { intros ->. destruct NZ as (z & I & N). destruct G as [_ G]. specialize (G z). assert (A : atoms = []) by (destruct atoms; [reflexivity|discriminate]).
      subst atoms. cbn in G. destruct (Z.eqb_spec z 0); [congruence|].
      assert (X : In z (map snd (combine (positions g) (numbers g)))) by (rewrite (combine_snd L); exact I).
      apply in_map_iff in X. destruct X as (a & A & X). assert (Y : In a (filter (fun a => Z.eqb (snd a) z) (combine (positions g) (numbers g)))).
      { apply filter_In. split; [exact X|]. now apply Z.eqb_eq. } rewrite <- G in Y. destruct Y. }
    destruct (make_cell lat NEp LP) as (c & GG & _). exists c, lat, atoms, pos. split; [|auto].
    rewrite RF. cbn [read_text]. unfold vasp_get_cell. rewrite Rs. cbn [bind]. exact GG.
Qed.
End F.

(** *** same atoms *)
Lemma filter_head A (P : A -> bool) l a r : filter P l = a :: r -> exists l1 l2, l = l1 ++ a :: l2 /\ filter P l1 = [] /\ filter P l2 = r /\ P a = true.
Proof.
  induction l as [|b l IH]; cbn; [discriminate|]. destruct (P b) eqn:E; intros H.
  - injection H as E1 E2. subst a. exists [], l. auto.
  - destruct (IH H) as (l1 & l2 & -> & F1 & F2 & F3). exists (b :: l1), l2. cbn. rewrite E. auto.
Qed.
Lemma permuted_by_species (l l' : list (vec Qc * Z)) : (forall z, filter (fun a => Z.eqb (snd a) z) l = filter (fun a => Z.eqb (snd a) z) l') -> Permutation l l'.
Proof.
  revert l'. induction l as [|a l IH]; intros l' H.
  - destruct l' as [|b l']; [constructor|]. specialize (H (snd b)). cbn in H. rewrite Z.eqb_refl in H. discriminate.
  - pose proof (H (snd a)) as Ha. cbn [filter] in Ha. rewrite Z.eqb_refl in Ha. symmetry in Ha.
    destruct (filter_head Ha) as (l1 & l2 & -> & F1 & F2 & _). apply Permutation_cons_app, IH. intros z. specialize (H z).
    rewrite filter_app in H. cbn [filter] in H. rewrite filter_app. destruct (Z.eqb_spec (snd a) z) as [E|N].
    + rewrite <- E in *. rewrite F1 in H |- *. cbn [List.app] in H |- *. now injection H.
    + exact H.
Qed.
Lemma atoms_permuted f g atoms : (f = Fvasp -> ~ In 0%Z (numbers g)) -> length (positions g) = length (numbers g) ->
  match f with Fyaml => atoms = combine (positions g) (numbers g) | Fvasp => grouped (combine (positions g) (numbers g)) atoms end ->
  Permutation atoms (combine (positions g) (numbers g)).
Proof.
  intros NV L M. destruct f; [now subst|]. specialize (NV eq_refl). destruct M as [_ G]. apply permuted_by_species. intros z. rewrite G.
  destruct (Z.eqb_spec z 0) as [->|]; [|reflexivity].
  assert (X : forall a, In a (combine (positions g) (numbers g)) -> snd a <> 0%Z).
  { intros [p z] I. apply in_combine_r in I. cbn. congruence. }
  clear - X. induction (combine (positions g) (numbers g)) as [|a l IH]; [reflexivity|]. cbn. destruct (Z.eqb_spec (snd a) 0) as [E|]; [exfalso; exact (X a (or_introl eq_refl) E)|].
  apply IH. intros b I. apply X. now right.
Qed.
Lemma vwithin_near t p p' : vwithin t p p' -> near t p' p.
Proof.
  assert (W : forall x y, within t x y -> near1 t y x).
  { intros x y [A B]. exists 0%Z. change (Zc 0) with 0%Qc. split; qclra. }
  intros (A & B & C). split; [|split]; auto.
Qed.
Lemma margin_mono e e' p : (e <= e')%Qc -> margin e' p -> margin e p.
Proof.
  intros LE. assert (M : forall x, margin1 e' x -> margin1 e x).
  { intros x H k [A B]. apply (H k). generalize dependent (x - Q2Qc ((2 * k + 1) # 2000))%Qc. intros y A B. split; qclra. }
  intros (A & B & C). split; [|split]; auto.
Qed.

Lemma rounded_copy g lat atoms pos c m : from_constructor g -> SSym.distinct_sites (positions g) -> Forall (margin m) (positions g) -> (read_tol <= m)%Qc ->
  Permutation atoms (combine (positions g) (numbers g)) -> Forall2 (vwithin read_tol) (map fst atoms) pos -> mwithin read_tol (lattice g) lat ->
  GeneralCell_new lat pos (map snd atoms) = Ok c ->
  rounded g c /\ GeneralCell_new (lattice g) (map fst atoms) (map snd atoms) = Ok g /\ Forall (margin m) (map fst atoms) /\ Forall2 (near read_tol) pos (map fst atoms).
Proof.
  intros FC DS MG LE PM VW MW EC. destruct (from_constructor_facts FC) as (_ & _ & LG & _).
  assert (NA : combine (map fst atoms) (map snd atoms) = atoms) by (clear; induction atoms as [|[p z] l IH]; [reflexivity|cbn; now rewrite IH]).
  assert (LL : length (map fst atoms) = length (map snd atoms)) by now rewrite !map_length.
  assert (EG : GeneralCell_new (lattice g) (map fst atoms) (map snd atoms) = Ok g).
  { destruct FC as (lat0 & pos0 & nums0 & L0 & E0). rewrite <- (@C09_idempotent lat0 pos0 nums0 g L0 E0). symmetry. apply C09_order_independent; [exact LG|exact LL| |exact DS].
    rewrite NA. now apply Permutation_sym. }
  assert (MA : Forall (margin m) (map fst atoms)).
  { apply Forall_forall. intros p I. apply in_map_iff in I as ([p' z] & <- & I). apply (Permutation_in _ PM) in I. apply in_combine_l in I. rewrite Forall_forall in MG. now apply MG. }
  assert (NR : Forall2 (near read_tol) pos (map fst atoms)).
  { clear - VW. induction VW; constructor; auto using vwithin_near. }
  split; [|auto]. assert (MR : Forall (margin read_tol) (map fst atoms)) by (eapply Forall_impl; [|exact MA]; intros p; now apply margin_mono).
  destruct (cell_near lat LL MR NR EG) as (c2 & E2 & L2 & N2 & P2). rewrite EC in E2. injection E2 as <-. split; [rewrite L2; exact MW|]. split; assumption.
Qed.

(** *** the second command *)
Lemma kfold_species init P n sp x z : k_fold init P n sp x -> In z x -> z = sp \/ In z init.
Proof.
  intros (S & _ & L & H) I. apply In_nth_error in I as (i & I). destruct (nth_pair (x := init) (eq_sym L) I) as (a & A). destruct (H i a A) as [H1 H2].
  destruct (in_dec Nat.eq_dec i S) as [K|K]; [left|right].
  - specialize (H1 K). congruence.
  - specialize (H2 K). assert (z = a) by congruence. subst. eapply nth_error_In; eauto.
Qed.

Section Second.
Context (dump : ydoc -> string) (load : string -> res ydoc) (cbrt : Qc -> Qc) (spg : gcell -> list (mat Z * vec Qc)) (wy : gcell -> list string)
  (psize : cell3 -> nat) (std : cell3 -> cell3) (hash : list Z -> Z) (g : gcell) (ops : list (mat Z * vec Qc)) (suffix : nat -> string) (len : nat)
  (ele sp : Z) (n : nat).
Notation D := (k_fold (numbers g) (site_holds (numbers g) ele) n sp).
Hypothesis FG : from_constructor g.
Hypothesis SY : sees_symmetry spg g ops.
Hypothesis EN : enumerable hash suffix ops g D.
Hypothesis SG : Forall supported (numbers g).
Hypothesis SS : supported sp.
Hypothesis LS : forall k, String.length (suffix k) = len.
Hypothesis LD : forall d, load (dump d) = Ok d.

Lemma second_step lat atoms pos c : Permutation atoms (combine (positions g) (numbers g)) -> Forall2 (vwithin read_tol) (map fst atoms) pos ->
  mwithin read_tol (lattice g) lat -> GeneralCell_new lat pos (map snd atoms) = Ok c ->
  rounded g c /\ forall a cwd rd fs ds, plain_run a c ele sp n -> ds (cwd ++ "/STRUCTURES_" ++ a_comment a ++ "_" ++ rd)%string = false ->
    one_readable_file_each load cbrt (geo_equivalent ops (positions g)) D (fun y => eq (decorated c y)) fs
      (o_files (biter_run spg wy psize std hash dump a cwd rd suffix fs ds)).
Proof.
  intros PM VW MW EC. destruct SY as ((DS & GRP & SP & RG) & m & R & MG & RS & LE & NO).
  destruct (rounded_copy FG DS MG LE PM VW MW EC) as (RD & EG & MA & NR). split; [exact RD|].
  intros a cwd rd fs ds (P1 & P2 & P3 & P4 & P5 & P6 & P7 & P8) DD. destruct (NO c RD) as (t & FO & LT).
  assert (LL : length (map fst atoms) = length (map snd atoms)) by now rewrite !map_length.
  assert (SE : small_errors m (map fst atoms) pos ops (spg c) apply_op).
  { split; [exact MA|]. exists R, read_tol, t, 0%Qc. split; [exact NR|]. split; [exact FO|]. split; [exact RS|]. split.
    - intros o p. rewrite apply_op_image. split; [|split]; exists 0%Z; change (Zc 0) with 0%Qc; split; qclra.
    - split; [exact LE|]. replace (Zc R * read_tol + t + 0)%Qc with (Zc R * read_tol + t)%Qc by ring. exact LT. }
  assert (KEEP : species_kept ops (positions g) (numbers g)).
  { intros o i j p p' Io P P' K. apply (SP o i j p p' Io P P'). now apply carries_exactly_carries. }
  assert (NEc : positions c <> []).
  { destruct RD as (_ & _ & F). destruct (from_constructor_facts FG) as (_ & NEg & _). intros Z. rewrite Z in F. inversion F. congruence. }
  destruct (get_symmetry_permutation (spg c) c) as [perms|] eqn:EP; [|rewrite mapM_gsp_ok in EP by exact NEc; discriminate].
  destruct (noisy_facts (wy c) LL EG DS GRP KEEP SE EC EP) as (NUM & _ & FC & PG & PR & GE).
  assert (OG : OccupyGenerator_new (spg c) (wy c) c = Ok (mkOcc c perms (wy c))) by (unfold OccupyGenerator_new; now rewrite EP).
  destruct EN as (CFR & SA & ES).
  assert (EQ : forall x y, D x -> (geo_equivalent ops (positions g) x y <-> equivalent perms x y)).
  { intros x y Dx. symmetry. apply GE. rewrite NUM. exact (kfold_length Dx). }
  assert (WN : forall x, wanted psize (a_mpr a) None (decorated (a_cell a) x)) by (intros x; split; [rewrite P7; discriminate|discriminate]).
  assert (SX : forall x, D x -> Forall supported x).
  { intros x Dx. apply Forall_forall. intros z I. destruct (kfold_species Dx I) as [->|I']; [exact SS|]. rewrite Forall_forall in SG. now apply SG. }
  pose proof (C80_ocubiter load cbrt spg wy psize std hash dump a n cwd rd suffix len fs ds (mkOcc c perms (wy c)) None) as K.
  cbv zeta in K. rewrite P1, P2, P3, P4, P5, P6, P7, NUM in K. cbn [sym_perm] in K. rewrite NUM in PG, PR. rewrite P1, P7 in WN.
  destruct K as (ps & ys & K1 & K2 & K3 & K4).
  { exact DD. } { exact OG. } { reflexivity. } { reflexivity. } { exact FC. } { exact PG. } { exact PR. } { exact CFR. }
  { split; [exact P8|]. rewrite P1, P6, P7. split; [|split].
    - intros x Dx. exists (decorated c x). split; [reflexivity|]. exact (SX x Dx).
    - intros x z d _. discriminate.
    - intros x y _ _ _ _. apply WN. }
  { exact LS. }
  { intros ys T. apply ES. refine (@transversal_rel _ (equivalent perms) _ _ _ _ _); [intros x y Dx; symmetry; now apply EQ|].
    destruct T as (T1 & T2 & T3). split; [eapply Forall_impl; [|exact T1]; intros x H; apply H|]. split; [|exact T3]. intros x Dx. apply T2. split; [exact Dx|apply WN]. }
  { intros x c' Dx ->. cbn [numbers decorated]. now apply SA. }
  { exact LD. }
  exists ps, ys. split; [exact K1|]. split; [exact K2|]. split.
  - refine (@transversal_rel _ (equivalent perms) _ _ _ _ _); [intros x y Dx; symmetry; now apply EQ|].
    destruct K3 as (T1 & T2 & T3). split; [eapply Forall_impl; [|exact T1]; intros x H; apply H|]. split; [|exact T3]. intros x Dx. apply T2. split; [exact Dx|apply WN].
  - eapply Forall2_imp; [|exact K4]. intros p y (c' & W & RA). exists c'. split; [symmetry; exact W|exact RA].
Qed.
End Second.
