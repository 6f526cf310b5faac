(** The decoration found in the cell of the superlattice is among those enumerated. *)
From Coq Require Import String.
From Verif Require Import Base LBase BaseQ LQ SLattice SGeneralCell LGeneralCell MGeneralCell SSym LSym SSubst SOcc SEnum SModCell SShape MHnf LMat3 LHnf LSuper LSuper2 LFrac LCrystal
  LGrid LModCell4 LShape LShape2 MComb MSogen LDup LSogen SBurn LBurn SDeriv LDeriv LDeriv2 PSuper PSym.
Set Implicit Arguments.
Unset Strict Implicit.
Open Scope nat_scope.
Notation length := List.length.

Lemma made_by_constructor s c : to_general_cell s = Ok c -> num_count c = length (positions c) -> from_constructor c.
Proof.
  unfold to_general_cell, build_supercell. intros H N.
  destruct (inv (matZ (sl_H s))) as [si|]; cbn [bind] in H; [|discriminate].
  destruct (get_frac_from_mat (sl_H s)) as [fr|]; cbn [bind] in H; [|discriminate].
  destruct (np_concatenate _) as [p|]; cbn [bind] in H; [|discriminate].
  destruct (np_repeat _ _) as [x|]; cbn [bind] in H; [|discriminate].
  exists (mat_mul (matZ (sl_H s)) (sl_ub s)), p, x. split; [|exact H].
  destruct (GeneralCell_new_inv _ _ _ H) as [NE LE]. rewrite GeneralCell_new_ok in H by assumption. injection H as <-. cbn in N.
  rewrite sortp_length in N. congruence.
Qed.

(** A reordering of the numbers given by the permutation of an operation is its motion of the crystal. *)
Lemma equivalent_moved ops wy c o x y : from_constructor c -> symmetries_of ops c -> OccupyGenerator_new ops wy c = Ok o ->
  length x = length (positions c) -> equivalent (sym_perm o) x y ->
  exists q w, orthogonal q /\ keeps_crystal (cell_of c) q w /\
    forall z v, crystal_atom (lattice c) (positions c) x z v <-> crystal_atom (lattice c) (positions c) y z (move q w v).
Proof.
  intros FC (ND & X & SPC & RG) E Lx (pm & Ip & Re). destruct (from_constructor_facts FC) as (Can & _ & Lc & _).
  unfold OccupyGenerator_new in E. destruct (get_symmetry_permutation ops c) as [perms|] eqn:EP; [|discriminate]. cbn in E. injection E as <-. cbn in Ip.
  pose proof (C13_lemma Can ND EP) as F2. pose proof (proj1 (distinct_keys _) ND) as ND'.
  apply In_nth_error in Ip as (k & Ik).
  destruct (nth_error ops k) as [op|] eqn:Eo; [|apply nth_error_None in Eo; rewrite (Forall2_len F2) in Eo; apply nth_error_None in Eo; congruence].
  pose proof (Forall2_nth F2 Eo Ik) as K. apply nth_error_In in Eo. destruct K as (Pm & Ca); [now apply exact_maps_sites with (ops := ops)|].
  destruct (RG op Eo) as (q & w & OQ & EQ). exists q, w. split; [exact OQ|]. split.
  { intros z v. apply (op_crystal ND' X Eo OQ EQ (x := numbers c) (y := numbers c) (eq_sym Lc) (eq_sym Lc)).
    intros i j p p' P P' K. apply (SPC op i j p p' Eo P P'). now apply carries_exactly_carries. }
  assert (Lp : length pm = length (positions c)) by (rewrite (Permutation_length Pm); apply seq_length).
  assert (Ly : length y = length (positions c)) by (rewrite <- (Forall2_len Re); exact Lp).
  apply (op_crystal ND' X Eo OQ EQ Lx Ly). intros i j p p' P P' Cx.
  assert (Ij : In j pm).
  { apply (Permutation_in _ (Permutation_sym Pm)). apply in_seq. assert (j < length (positions c)) by (apply nth_error_Some; congruence). lia. }
  apply In_nth_error in Ij as (i' & J). destruct (Ca i' j J) as (p0 & p1 & P0 & P1 & C0). assert (p0 = p) by congruence. subst p0.
  assert (i' = i) as -> by (apply (carries_fun ND' P0 P1 P' C0); now apply carries_exactly_carries).
  destruct (nth_pair (x := y) (l := positions c) Ly P') as (b & Bb). rewrite Bb. exact (Forall2_nth Re J Bb).
Qed.

(** The decoration of the supercell that shows the given crystal, once moved. *)
Lemma deriv_found rots ops u n h m news (C : crystal) :
  from_constructor u -> volume (lattice u) <> 0%Qc -> symmetries_of ops u -> is_hnf n h -> (n < 100000)%Z ->
  lat_equiv (map fst ops) m h -> derivative (cell_of u) m news C ->
  exists c, to_general_cell (SuperLatticeCell_new rots u h) = Ok c /\ from_constructor c /\
    (forall z v, atom_at (cell_of c) z v <-> atom_at (cell_of u) z v) /\
    (SSym.distinct_sites (positions c) -> exists x q w, orthogonal q /\ keeps_crystal (cell_of u) q w /\ length x = length (positions c) /\
       (forall z v, C z v <-> crystal_atom (lattice c) (positions c) x z (move q w v)) /\
       (forall i a b, nth_error (numbers c) i = Some a -> nth_error x i = Some b -> In b news \/ b = a) /\
       (forall sp subs, replaced_per_period (cell_of u) m sp C subs -> length (diffs (numbers c) x sp) = length subs) /\
       (forall sp ele, (forall v, replaced (cell_of u) sp C v -> atom_at (cell_of u) ele v) ->
          forall i, In i (diffs (numbers c) x sp) -> site_holds (numbers c) ele i)).
Proof.
  intros FU VU SU Hh N (r & Ir & RC) D. apply in_map_iff in Ir as (op & <- & Iop).
  destruct (from_constructor_facts FU) as (_ & NEu & Lu & _).
  destruct (C37_superlattice_same_crystal rots u n h NEu Lu Hh N) as (c & Ec & LC & _ & Lc & NC & CR).
  exists c. split; [exact Ec|]. split; [exact (made_by_constructor Ec NC)|]. split; [exact CR|]. intros Dc.
  pose proof SU as (_ & _ & _ & RG). destruct (RG op Iop) as (q & w & OQ & EQ).
  assert (Nh : zdet h <> 0%Z).
  { pose proof (hnf_det Hh). destruct Hh as (a & b & d & e & f & g & _ & ? & ? & ? & ? & _). nia. }
  destruct (species_list (u := u) (c := c) (ops := ops) (o := op) (eq_sym Lu) SU Iop Lc CR D OQ EQ) as (x & Lx & Hx).
  exists x, q, w. split; [exact OQ|]. split; [exact (@parent_moved u ops op (eq_sym Lu) SU Iop q w OQ EQ)|].
  split; [exact Lx|]. split; [|split; [|split]].
  - intros z v. rewrite (x_crystal (u := u) (c := c) (ops := ops) (o := op) (eq_sym Lu) SU Iop RC LC CR D OQ EQ Lx Hx).
    unfold C1. now rewrite unmove_move.
  - intros i a b. exact (@x_species u c ops op m news C (eq_sym Lu) VU SU Iop CR D q w OQ EQ x Lx Hx i a b).
  - intros sp subs PP. exact (@same_count u c ops op m h news C (eq_sym Lu) VU SU Iop RC Nh LC Lc Dc CR D q w OQ EQ x Lx Hx sp subs PP).
  - intros sp ele HE. exact (@same_element u c ops op m news C (eq_sym Lu) VU SU Iop Lc CR D q w OQ EQ x Lx Hx sp ele HE).
Qed.

(** ... is equivalent to a listed one. *)
Lemma deriv_listed u ops wy c o (C : crystal) x q w (t : trace gcell) (DD : list Z -> Prop) : from_constructor c -> symmetries_of ops c ->
  OccupyGenerator_new ops wy c = Ok o ->
  (forall z v, atom_at (cell_of c) z v <-> atom_at u z v) -> orthogonal q -> keeps_crystal u q w -> length x = length (positions c) -> (forall z v, C z v <-> crystal_atom (lattice c) (positions c) x z (move q w v)) ->
  Forall (same_frame c) (items t) -> transversal (equivalent (sym_perm o)) DD (map numbers (items t)) -> DD x ->
  exists g, In g (items t) /\ same_structure u C (atom_at (cell_of g)).
Proof.
  intros FC SC Eo CR OQ KU Lx XC FR (_ & TR & _) Dx. destruct (TR x Dx) as (y & Iy & Eq). apply in_map_iff in Iy as (g & <- & Ig).
  rewrite Forall_forall in FR. destruct (FR g Ig) as (GL & GP & _).
  destruct (equivalent_moved FC SC Eo Lx Eq) as (q2 & w2 & OQ2 & KC & M2).
  exists g. split; [exact Ig|].
  exists (mat_mul q q2), (vadd (vec_mat w q2) w2). split; [now apply orthogonal_mul|].
  assert (MM : forall v, vadd (vec_mat v (mat_mul q q2)) (vadd (vec_mat w q2) w2) = move q2 w2 (move q w v)) by (intros v; symmetry; apply move_move).
  split.
  { intros z v. rewrite MM, (KU z v), <- (CR z), <- (CR z). exact (KC z (move q w v)). }
  intros z v. unfold atom_at, cell_of. rewrite GL, GP. rewrite MM, <- M2. apply XC.
Qed.

Lemma generator_facts ops wy c : from_constructor c -> symmetries_of ops c -> exists o, OccupyGenerator_new ops wy c = Ok o /\ init_cell o = c /\
  from_constructor (init_cell o) /\ perm_group (length (numbers (init_cell o))) (sym_perm o) /\ preserves (sym_perm o) (numbers (init_cell o)).
Proof.
  intros FC (Dc & Xc & Spc & _). destruct (from_constructor_facts FC) as (_ & NEc & _).
  destruct (OccupyGenerator_new ops wy c) as [o|] eqn:Eo; [|unfold OccupyGenerator_new in Eo; rewrite mapM_gsp_ok in Eo by exact NEc; discriminate].
  exists o. split; [reflexivity|]. destruct FC as (lat & pos & nums & LL & EC). exact (end_to_end LL EC Dc Xc Spc Eo).
Qed.

Section Core.
Context (rots : list (mat Z)) (ops : list (mat Z * vec Qc)) (u : gcell) (n : Z) (h : mat Z) (spg : gcell -> list (mat Z * vec Qc)) (wy : gcell -> list string)
  (hash : list Z -> Z) (m : mat Z) (C : crystal).
Hypothesis FU : from_constructor u.
Hypothesis VU : volume (lattice u) <> 0%Qc.
Hypothesis SU : symmetries_of ops u.
Hypothesis Hh : is_hnf n h.
Hypothesis N : (n < 100000)%Z.
Hypothesis LE : lat_equiv (map fst ops) m h.

Lemma core_unitary sp subs : (forall c, to_general_cell (SuperLatticeCell_new rots u h) = Ok c ->
     symmetries_of (spg c) c /\ collision_free hash (k_fold (numbers c) (any_site (numbers c)) (length subs) sp)) ->
  derivative (cell_of u) m [sp] C -> replaced_per_period (cell_of u) m sp C subs ->
  exists c o g, to_general_cell (SuperLatticeCell_new rots u h) = Ok c /\
    OccupyGenerator_new (spg c) (wy c) c = Ok o /\ In g (items (gen_nodup_unitary hash o (Z.of_nat (length subs)) sp)) /\ same_structure (cell_of u) C (atom_at (cell_of g)).
Proof.
  intros SP D PP. destruct (deriv_found rots FU VU SU Hh N LE D) as (c & Ec & FC & CR & K). destruct (SP c Ec) as (SC & CF).
  destruct (K (proj1 SC)) as (x & q & w & OQ & KU & Lx & XC & XS & XN & _). destruct (generator_facts (wy c) FC SC) as (o & Eo & IC & FO & PG & PR).
  rewrite <- IC in CF. destruct (C19_unitary FO PG PR CF) as (_ & FR & TR). rewrite IC in FR, TR.
  destruct (from_constructor_facts FC) as (_ & _ & Lc & _).
  assert (KF : k_fold (numbers c) (any_site (numbers c)) (length subs) sp x).
  { rewrite <- (XN sp subs PP). apply diffs_fold; [congruence| |intros i; apply diffs_any; congruence].
    intros i a b A B. destruct (XS i a b A B) as [[<-|[]]|]; auto. }
  destruct (deriv_listed FC SC Eo CR OQ KU Lx XC FR TR KF) as (g & Ig & Sg). exists c, o, g. auto.
Qed.

Lemma core_element ele sp subs : (forall c, to_general_cell (SuperLatticeCell_new rots u h) = Ok c ->
     symmetries_of (spg c) c /\ collision_free hash (k_fold (numbers c) (site_holds (numbers c) ele) (length subs) sp)) ->
  derivative (cell_of u) m [sp] C -> replaced_per_period (cell_of u) m sp C subs ->
  (forall v, replaced (cell_of u) sp C v -> atom_at (cell_of u) ele v) ->
  exists c o g, to_general_cell (SuperLatticeCell_new rots u h) = Ok c /\
    OccupyGenerator_new (spg c) (wy c) c = Ok o /\ In g (items (gen_nodup_of_ele hash o ele (Z.of_nat (length subs)) sp)) /\ same_structure (cell_of u) C (atom_at (cell_of g)).
Proof.
  intros SP D PP HE. destruct (deriv_found rots FU VU SU Hh N LE D) as (c & Ec & FC & CR & K). destruct (SP c Ec) as (SC & CF).
  destruct (K (proj1 SC)) as (x & q & w & OQ & KU & Lx & XC & XS & XN & XE). destruct (generator_facts (wy c) FC SC) as (o & Eo & IC & FO & PG & PR).
  rewrite <- IC in CF. destruct (C19_ele FO PG PR CF) as (_ & FR & TR). rewrite IC in FR, TR.
  destruct (from_constructor_facts FC) as (_ & _ & Lc & _).
  assert (KF : k_fold (numbers c) (site_holds (numbers c) ele) (length subs) sp x).
  { rewrite <- (XN sp subs PP). apply diffs_fold; [congruence| |exact (XE sp ele HE)].
    intros i a b A B. destruct (XS i a b A B) as [[<-|[]]|]; auto. }
  destruct (deriv_listed FC SC Eo CR OQ KU Lx XC FR TR KF) as (g & Ig & Sg). exists c, o, g. auto.
Qed.

Lemma core_ternary v1 v2 subs1 subs2 : v1 <> v2 -> (forall c, to_general_cell (SuperLatticeCell_new rots u h) = Ok c ->
     symmetries_of (spg c) c /\ collision_free hash (two_fold (numbers c) (length subs1) v1 (length subs2) v2)) ->
  derivative (cell_of u) m [v1; v2] C -> replaced_per_period (cell_of u) m v1 C subs1 -> replaced_per_period (cell_of u) m v2 C subs2 ->
  exists c o g, to_general_cell (SuperLatticeCell_new rots u h) = Ok c /\
    OccupyGenerator_new (spg c) (wy c) c = Ok o /\
    In g (items (gen_nodup_trinary_alloy hash o v1 (Z.of_nat (length subs1)) v2 (Z.of_nat (length subs2)))) /\ same_structure (cell_of u) C (atom_at (cell_of g)).
Proof.
  intros N12 SP D P1 P2. destruct (deriv_found rots FU VU SU Hh N LE D) as (c & Ec & FC & CR & K). destruct (SP c Ec) as (SC & CF).
  destruct (K (proj1 SC)) as (x & q & w & OQ & KU & Lx & XC & XS & XN & _). destruct (generator_facts (wy c) FC SC) as (o & Eo & IC & FO & PG & PR).
  rewrite <- IC in CF. destruct (C20_lemma FO PG PR CF) as (_ & FR & TR). rewrite IC in FR, TR.
  destruct (from_constructor_facts FC) as (_ & _ & Lc & _).
  assert (KF : two_fold (numbers c) (length subs1) v1 (length subs2) v2 x).
  { rewrite <- (XN v1 subs1 P1), <- (XN v2 subs2 P2). apply diffs_two; [congruence|exact N12|exact XS]. }
  destruct (deriv_listed FC SC Eo CR OQ KU Lx XC FR TR KF) as (g & Ig & Sg). exists c, o, g. auto.
Qed.
End Core.

(** Conversely a substitution of the supercell is a derivative structure of its parent. *)
Section Sound.
Context (u c : gcell) (h : mat Z) (y news : list Z).
Hypothesis VO : volume (lattice u) <> 0%Qc.
Hypothesis Nh : zdet h <> 0%Z.
Hypothesis LC : lattice c = mat_mul (matZ h) (lattice u).
Hypothesis Lc : length (numbers c) = length (positions c).
Hypothesis Dc : SSym.distinct_sites (positions c).
Hypothesis CR : forall z v, crystal_atom (lattice c) (positions c) (numbers c) z v <-> crystal_atom (lattice u) (positions u) (numbers u) z v.
Hypothesis Ly : length y = length (positions c).
Hypothesis YS : forall i a b, nth_error (numbers c) i = Some a -> nth_error y i = Some b -> In b news \/ b = a.
Notation P := (positions c).
Notation L := (lattice u).
Notation made := (crystal_atom (lattice c) (positions c) y).

Lemma volc' : volume (lattice c) <> 0%Qc.
Proof. rewrite LC. now apply volume_supercell. Qed.
Lemma made_derivative : derivative (cell_of u) h news made.
Proof.
  split; unfold atom_at, cell_of; cbn [fst].
  - intros v. split.
    + intros (z & i & p & s & Pi & _ & E). destruct (nth_pair (x := numbers c) Lc Pi) as (a & A). exists a. apply CR. exists i, p, s. auto.
    + intros (z & H). apply CR in H as (i & p & s & Pi & _ & E). destruct (nth_pair (x := y) Ly Pi) as (a & A). exists a, i, p, s. auto.
  - intros v z z'. apply unique_species; [exact volc'|]. apply exact_distinct; [exact volc'|exact Dc].
  - intros v z (i & p & s & Pi & Y & E). destruct (nth_pair (x := numbers c) Lc Pi) as (a & A).
    destruct (YS A Y) as [H|H]; [now left|right]. subst z. apply CR. exists i, p, s. auto.
  - intros k0 z v (i & p & s & Pi & Y & ->). exists i, p, (zvadd s k0). split; [exact Pi|]. split; [exact Y|].
    rewrite LC, !cell_period. unfold period. rewrite zcomb_add, vecZ_add, vec_mat_add. now rewrite vadd_assoc.
Qed.
Lemma native i a : nth_error (numbers c) i = Some a -> In a (numbers u).
Proof.
  intros A. destruct (nth_pair (x := P) (eq_sym Lc) A) as (p & Pi).
  assert (H : crystal_atom (lattice c) P (numbers c) a (vec_mat p (lattice c))) by now apply atom_here with i.
  apply CR in H as (j & p' & s & _ & Z & _). now apply nth_error_In with j.
Qed.
Lemma made_replaced sp S : ~ In sp (numbers u) -> NoDup S -> (forall i, In i S <-> nth_error y i = Some sp) ->
  exists subs, length subs = length S /\ replaced_per_period (cell_of u) h sp made subs.
Proof.
  intros NI ND H.
  assert (NP : forall v, ~ crystal_atom (lattice u) (positions u) (numbers u) sp v).
  { intros v (i & p & s & _ & Z & _). apply NI. now apply nth_error_In with i. }
  assert (AT : forall i, In i S -> exists p, nth_error P i = Some p /\ nth_error y i = Some sp).
  { intros i I. apply H in I. destruct (nth_pair (x := P) (eq_sym Ly) I) as (p & Pi). eauto. }
  exists (map (fun i => vec_mat (nth i P v0) (lattice c)) S). split; [now rewrite map_length|]. unfold replaced_per_period, replaced, atom_at, cell_of. cbn [fst]. split; [|split].
  - apply Forall_forall. intros v I. apply in_map_iff in I as (i & <- & I). destruct (AT i I) as (p & Pi & Y).
    rewrite (nth_error_nth _ _ _ Pi). split; [now apply atom_here with i|apply NP].
  - intros v [(i & p & s & Pi & Y & ->) N]. exists (vec_mat p (lattice c)), s. split; [|now rewrite LC, cell_period].
    apply in_map_iff. exists i. split; [now rewrite (nth_error_nth _ _ _ Pi)|]. now apply H.
  - clear H. induction ND as [|i S N ND IH]; cbn [map]; constructor.
    + apply Forall_forall. intros v I k0 E. apply in_map_iff in I as (j & <- & I). destruct (AT i (or_introl eq_refl)) as (p & Pi & _).
      destruct (AT j (or_intror I)) as (p' & Pj & _). rewrite (nth_error_nth _ _ _ Pi), (nth_error_nth _ _ _ Pj) in E.
      rewrite LC, <- cell_period, <- LC in E. apply N. replace i with j; [exact I|].
      exact (exact_distinct volc' Dc Pj Pi E).
    + apply IH. intros j J. apply AT. now right.
Qed.
End Sound.

Lemma fold_choice init Q k v y : k_fold init Q k v y -> forall i a b, nth_error init i = Some a -> nth_error y i = Some b -> In b [v] \/ b = a.
Proof.
  intros (S & _ & _ & H) i a b A B. destruct (H i a A) as [H1 H2]. destruct (in_dec Nat.eq_dec i S) as [I|I].
  - left. left. rewrite (H1 I) in B. congruence.
  - right. rewrite (H2 I) in B. congruence.
Qed.
Lemma fold_places init (Q : nat -> Prop) k v y : (forall i, Q i -> i < length init) -> ~ In v init -> k_fold init Q k v y ->
  exists S, NoDup S /\ length S = k /\ forall i, In i S <-> nth_error y i = Some v.
Proof.
  intros HQ NI (S & (ND & LS & IS) & Ly & H). exists S. split; [exact ND|]. split; [exact LS|]. intros i. split.
  - intros I. pose proof (HQ i (IS i I)) as Li. destruct (nth_error init i) as [a|] eqn:A; [|apply nth_error_None in A; lia]. now apply (H i a A).
  - intros Y. destruct (in_dec Nat.eq_dec i S) as [I|I]; [exact I|]. exfalso. destruct (nth_pair (x := init) (eq_sym Ly) Y) as (a & A).
    rewrite (proj2 (H i a A) I) in Y. injection Y as ->. apply NI. now apply nth_error_In with i.
Qed.
Lemma two_choice init n1 v1 n2 v2 y : two_fold init n1 v1 n2 v2 y -> forall i a b, nth_error init i = Some a -> nth_error y i = Some b -> In b [v1; v2] \/ b = a.
Proof.
  intros (S1 & S2 & _ & _ & _ & _ & H) i a b A B. destruct (H i a A) as (H1 & H2 & H3).
  destruct (in_dec Nat.eq_dec i S1) as [I|I]; [left; left; rewrite (H1 I) in B; congruence|].
  destruct (in_dec Nat.eq_dec i S2) as [J|J]; [left; right; left; rewrite (H2 J) in B; congruence|]. right. rewrite (H3 I J) in B. congruence.
Qed.
Lemma two_places init n1 v1 n2 v2 y : v1 <> v2 -> two_fold init n1 v1 n2 v2 y ->
  (~ In v1 init -> exists S, NoDup S /\ length S = n1 /\ forall i, In i S <-> nth_error y i = Some v1) /\
  (~ In v2 init -> exists S, NoDup S /\ length S = n2 /\ forall i, In i S <-> nth_error y i = Some v2).
Proof.
  intros N12 (S1 & S2 & (ND1 & L1 & I1) & (ND2 & L2 & I2) & DJ & Ly & H). split; intros NI.
  - exists S1. split; [exact ND1|]. split; [exact L1|]. intros i. split.
    + intros I. pose proof (I1 i I) as Li. unfold any_site in Li. destruct (nth_error init i) as [a|] eqn:A; [|apply nth_error_None in A; lia]. now apply (H i a A).
    + intros Y. destruct (in_dec Nat.eq_dec i S1) as [I|I]; [exact I|]. exfalso. destruct (nth_pair (x := init) (eq_sym Ly) Y) as (a & A).
      destruct (H i a A) as (_ & H2 & H3). destruct (in_dec Nat.eq_dec i S2) as [J|J]; [rewrite (H2 J) in Y; congruence|].
      rewrite (H3 I J) in Y. injection Y as ->. apply NI. now apply nth_error_In with i.
  - exists S2. split; [exact ND2|]. split; [exact L2|]. intros i. split.
    + intros I. pose proof (I2 i I) as Li. unfold any_site in Li. destruct (nth_error init i) as [a|] eqn:A; [|apply nth_error_None in A; lia]. now apply (H i a A).
    + intros Y. destruct (in_dec Nat.eq_dec i S2) as [I|I]; [exact I|]. exfalso. destruct (nth_pair (x := init) (eq_sym Ly) Y) as (a & A).
      destruct (H i a A) as (H1 & _ & H3). destruct (in_dec Nat.eq_dec i S1) as [J|J]; [rewrite (H1 J) in Y; congruence|].
      rewrite (H3 J I) in Y. injection Y as ->. apply NI. now apply nth_error_In with i.
Qed.

Lemma sound_core rots u n h c g (counts : list (Z * nat)) :
  from_constructor u -> volume (lattice u) <> 0%Qc -> is_hnf n h -> (n < 100000)%Z ->
  to_general_cell (SuperLatticeCell_new rots u h) = Ok c -> SSym.distinct_sites (positions c) -> same_frame c g ->
  length (numbers g) = length (numbers c) ->
  (forall i a b, nth_error (numbers c) i = Some a -> nth_error (numbers g) i = Some b -> In b (map fst counts) \/ b = a) ->
  (forall sp k, In (sp, k) counts -> ~ In sp (numbers c) -> exists S, NoDup S /\ length S = k /\ forall i, In i S <-> nth_error (numbers g) i = Some sp) ->
  shows_derivative u h counts g.
Proof.
  intros FU VU Hh N Ec Dc (GL & GP & _) Lg YS PL. destruct (from_constructor_facts FU) as (_ & NEu & Lu & _).
  destruct (C37_superlattice_same_crystal rots u n h NEu Lu Hh N) as (c' & Ec' & LC & _ & Lc & NC & CR).
  rewrite Ec' in Ec. injection Ec as ->.
  assert (Nh : zdet h <> 0%Z).
  { pose proof (hnf_det Hh). destruct Hh as (a & b & d & e & f & g' & _ & ? & ? & ? & ? & _). nia. }
  assert (E : atom_at (cell_of g) = crystal_atom (lattice c) (positions c) (numbers g)) by (unfold atom_at, cell_of; now rewrite GL, GP).
  unfold shows_derivative. rewrite E. split.
  - apply made_derivative with (c := c); auto. congruence.
  - intros sp k I NI. destruct (PL sp k I) as (S & ND & <- & HS).
    + intros J. apply NI. apply In_nth_error in J as (i & J). exact (native Lc CR J).
    + apply made_replaced with (c := c); auto. congruence.
Qed.
