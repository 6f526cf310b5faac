(** Consequences: order of the species, ternary alloys, and an oracle for examples. *)
From Coq Require Import String.
From Verif Require Import Base LBase BaseQ MGeneralCell SGeneralCell LGeneralCell MComb SSubst SSym MSogen LFilter SOcc SEnum LDup LLevels LMisc LSym LSymDec LSogen SRobust LRobust SChoice LChoice LFrame LCli3 SSteps LSteps LSteps2.
Set Implicit Arguments.
Unset Strict Implicit.
Open Scope list_scope.
Open Scope nat_scope.
Notation length := List.length.

Lemma composed_perm init ele steps steps' x : Permutation steps steps' -> composed init ele steps x -> composed init ele steps' x.
Proof.
  intros P (L & H & C). split; [exact L|]. split.
  - intros i a E. destruct (H i a E) as [K|(-> & s & Hs & K)]; [now left|right]. split; [reflexivity|]. exists s. split; [exact (Permutation_in _ P Hs)|exact K].
  - intros s Hs. apply C. exact (Permutation_in _ (Permutation_sym P) Hs).
Qed.
Lemma new_species_perm init ele steps steps' : Permutation steps steps' -> new_species init ele steps -> new_species init ele steps'.
Proof.
  intros P [ND NI]. split; [|intros s Hs; apply NI; exact (Permutation_in _ (Permutation_sym P) Hs)].
  eapply Permutation_NoDup; [|exact ND]. constructor. now apply Permutation_map.
Qed.

Lemma two_fold_composed init ele n1 v1 n2 v2 x : Forall (fun a => a = ele) init -> new_species init ele [(n1, v1); (n2, v2)] ->
  two_fold init n1 v1 n2 v2 x <-> composed init ele [(n1, v1); (n2, v2)] x.
Proof.
  intros PURE [ND NI]. rewrite Forall_forall in PURE. cbn [map snd] in ND. inversion ND as [|? ? N1 N2]; subst. inversion N2 as [|? ? N3 N4]; subst.
  assert (A1 : v1 <> ele) by (intros ->; apply N1; now left). assert (A2 : v2 <> ele) by (intros ->; apply N1; right; now left). assert (A3 : v1 <> v2) by (intros ->; apply N3; now left).
  split.
  - intros (S1 & S2 & (D1 & L1 & H1) & (D2 & L2 & H2) & DJ & L & H). split; [exact L|].
    assert (V : forall i b, nth_error x i = Some b -> (b = v1 <-> In i S1) /\ (b = v2 <-> In i S2) /\ (b = ele \/ b = v1 \/ b = v2)).
    { intros i b Eb. destruct (nth_same L Eb) as [a Ea]. pose proof (PURE a (nth_error_In _ _ Ea)). subst a. destruct (H i ele Ea) as (K1 & K2 & K3).
      destruct (in_dec Nat.eq_dec i S1) as [I|I]; [rewrite (K1 I) in Eb; injection Eb as <-; specialize (DJ i I); intuition congruence|].
      destruct (in_dec Nat.eq_dec i S2) as [J|J]; [rewrite (K2 J) in Eb; injection Eb as <-; intuition congruence|].
      rewrite (K3 I J) in Eb. injection Eb as <-. intuition congruence. }
    assert (CS : forall S v, NoDup S -> (forall i, In i S -> any_site init i) -> (forall i b, nth_error x i = Some b -> (b = v <-> In i S)) -> count_occ Z.eq_dec x v = length S).
    { intros S v DS HS VS. rewrite count_sites. apply Nat.le_antisymm; apply NoDup_incl_length; auto using sites_with_NoDup; intros i Hi.
      - apply sites_with_In in Hi. now apply (VS i v Hi).
      - specialize (HS i Hi). unfold any_site in HS. rewrite <- L in HS. destruct (nth_error x i) as [b|] eqn:Eb; [|apply nth_error_None in Eb; lia].
        apply sites_with_In. rewrite Eb. f_equal. now apply (VS i b Eb). }
    split.
    + intros i a Ea. pose proof (PURE a (nth_error_In _ _ Ea)). subst a. destruct (nth_same (eq_sym L) Ea) as [b Eb]. destruct (V i b Eb) as (_ & _ & [-> |[-> | ->]]); [now left| |]; right; (split; [reflexivity|]).
      * exists (n1, v1). split; [now left|exact Eb].
      * exists (n2, v2). split; [right; now left|exact Eb].
    + intros s [<-|[<-|[]]]; cbn [fst snd].
      * rewrite <- L1. apply CS; auto. intros i b Eb. apply (V i b Eb).
      * rewrite <- L2. apply CS; auto. intros i b Eb. apply (V i b Eb).
  - intros (L & H & C). exists (sites_with x v1), (sites_with x v2).
    assert (AS : forall i v, In i (sites_with x v) -> any_site init i) by (intros i v Hi; apply sites_with_In in Hi; unfold any_site; rewrite <- L; apply nth_error_Some; congruence).
    split; [split; [apply sites_with_NoDup|]; split; [rewrite <- count_sites; apply (C (n1, v1)); now left|intros i; apply AS]|].
    split; [split; [apply sites_with_NoDup|]; split; [rewrite <- count_sites; apply (C (n2, v2)); right; now left|intros i; apply AS]|].
    split; [intros i I J; apply sites_with_In in I, J; congruence|]. split; [exact L|]. intros i a Ea. rewrite !sites_with_In. split; [auto|]. split; [auto|]. intros K1 K2.
    destruct (H i a Ea) as [K|(_ & s & [<-|[<-|[]]] & K)]; [exact K| |]; contradiction.
Qed.

Lemma steps_geo h spg wy all c ele steps : from_constructor c -> distinct_sites (positions c) -> reports_symmetry spg all c -> new_species (numbers c) ele steps ->
  (forall k, collision_free h (composed (numbers c) ele (firstn k steps))) ->
  let t := one_by_one h spg wy ele steps c in
  stop t = None /\ Forall (same_frame c) (items t) /\ transversal (geo_equivalent (spg c) (positions c)) (composed (numbers c) ele steps) (map numbers (items t)).
Proof.
  intros FC DIS REP NS CF. destruct (steps_lemma wy FC DIS REP (init_frame FC) NS CF) as (A & B & C). split; [exact A|]. split; [exact B|].
  pose proof REP as [X R]. destruct (keeping_group DIS X (R c (init_frame FC))) as [X' K']. pose proof FC as (lat & pos & nums & L & NEW).
  destruct (generator_facts L NEW DIS X' K' (occ_new spg wy FC (init_frame FC))) as (_ & _ & _ & _ & _ & _ & GE).
  refine (transversal_rel _ C). intros x y Dx. rewrite <- GE by apply Dx. symmetry. exact (equivalent_rel wy FC DIS REP x y (init_frame FC)).
Qed.

Section Conseq.
Variables (spg : gcell -> list (mat Z * vec Qc)) (all : list (mat Z * vec Qc)) (c : gcell).
Hypothesis FC : from_constructor c.
Hypothesis DIS : distinct_sites (positions c).
Hypothesis REP : reports_symmetry spg all c.

Lemma geo_match (D : list Z -> Prop) l l' : (forall x, D x -> length x = length (numbers c)) ->
  transversal (geo_equivalent (spg c) (positions c)) D l -> transversal (geo_equivalent (spg c) (positions c)) D l' -> same_classes (geo_equivalent (spg c) (positions c)) l l'.
Proof.
  intros LD. pose proof REP as [X R]. destruct (keeping_group DIS X (R c (init_frame FC))) as [X' K']. pose proof FC as (lat & pos & nums & L & NEW).
  destruct (generator_facts L NEW DIS X' K' (occ_new spg (fun _ => []) FC (init_frame FC))) as (_ & _ & _ & HG & _ & _ & GE).
  apply transversal_match.
  - intros x y Dx. specialize (LD x Dx). intros E. pose proof (proj1 E) as LY. apply GE; [congruence|]. apply GE in E; [|exact LD]. exact (equivalent_sym HG LD E).
  - intros x y z Dx. specialize (LD x Dx). intros E1 E2. pose proof (proj1 E1) as LY. apply GE; [exact LD|]. apply GE in E1; [|exact LD]. apply GE in E2; [|congruence]. exact (equivalent_trans HG LD E1 E2).
Qed.
End Conseq.

(** *** an oracle that reports the symmetry *)
Definition keeping_ops (all : list (mat Z * vec Qc)) (g : gcell) : list (mat Z * vec Qc) := filter (fun o => species_keptb [o] (positions g) (numbers g)) all.
Lemma vQc_eqb_eq a b : vQc_eqb a b = true -> a = b.
Proof.
  destruct a as [a1 a2 a3], b as [b1 b2 b3]. unfold vQc_eqb, Qceqb. cbn [vx vy vz]. rewrite !andb_true_iff, !Qeq_bool_iff. intros [[A B] C].
  apply Qc_is_canon in A, B, C. congruence.
Qed.
Lemma combine_nth_inv A B (a : list A) (b : list B) x y : In (x, y) (combine a b) -> exists i, nth_error a i = Some x /\ nth_error b i = Some y.
Proof.
  revert b. induction a as [|u a IH]; intros [|v b] H; cbn in H; try contradiction. destruct H as [[= -> ->]|H]; [now exists 0|]. destruct (IH b H) as [i Hi]. now exists (S i).
Qed.
Lemma species_keptb_complete all o pos nums : distinct_sites pos -> exact_space_group all pos -> In o all -> species_kept [o] pos nums -> species_keptb [o] pos nums = true.
Proof.
  intros D X Ho K. unfold species_keptb. cbn [forallb]. rewrite andb_true_r. apply forallb_forall. intros [p z] Hp. apply forallb_forall. intros [q w] Hq. cbn [fst snd].
  destruct (vQc_eqb _ _) eqn:E; [|reflexivity]. cbn. apply vQc_eqb_eq in E. apply Z.eqb_eq.
  apply combine_nth_inv in Hp, Hq. destruct Hp as (j & Hp & Hz), Hq as (i & Hq & Hw).
  apply carries_iff in E. apply (carries_to_exact (proj1 (distinct_keys _) D) X Ho (nth_error_In _ _ Hp) (nth_error_In _ _ Hq)) in E.
  specialize (K o i j p q (or_introl eq_refl) Hp Hq E). congruence.
Qed.
Lemma keeping_ops_reports all c : from_constructor c -> distinct_sites (positions c) -> exact_space_group all (positions c) -> reports_symmetry (keeping_ops all) all c.
Proof.
  intros FC D X. split; [exact X|]. intros g (_ & P & _ & L & _) o. unfold keeping_ops. rewrite filter_In, P.
  assert (LE : length (positions c) = length (numbers g)) by (destruct (from_constructor_facts FC) as (_ & _ & LE & _); congruence).
  split; intros [Ho K]; (split; [exact Ho|]); [exact (species_keptb_ok LE K)|exact (species_keptb_complete D X Ho K)].
Qed.
Lemma composed_poly init ele steps : Forall (fun z => 0 <= z < 1000)%Z (map snd steps ++ init) -> collision_free poly (composed init ele steps).
Proof.
  intros F x y Hx Hy E. rewrite Forall_forall in F.
  assert (B : forall x, composed init ele steps x -> length x = length init /\ Forall (fun z => 0 <= z < 1000)%Z x).
  { clear x y Hx Hy E. intros x (L & H & _). split; [exact L|]. apply Forall_forall. intros z Hz. destruct (In_nth_error _ _ Hz) as [i Hi]. destruct (nth_same L Hi) as [a Ea]. apply F, in_or_app.
    destruct (H i a Ea) as [K|(_ & s & Hs & K)]; rewrite K in Hi; injection Hi as <-; [right; exact (nth_error_In _ _ Ea)|left; now apply in_map]. }
  destruct (B x Hx), (B y Hy). apply poly_inj; auto. congruence.
Qed.
