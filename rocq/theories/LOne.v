(** The commands that turn one file into one file, exactly. *)
From Coq Require Import String Ascii Sorted Permutation.
From Verif Require Import Base LBase BaseQ LQ SElement MElement LElement SLattice SSubst SSym SGeneralCell LGeneralCell PGeneralCell MGeneralCell MHnf LHnf LCrystal LSuper LSuper2 PHnf PSuper
  MModCell SModCell LModCell LModCell2 LModCell3 LModCell4 LModCell5 PModCell
  SOcc MIO SIO LIO5 LIO6 SShape LShape LShape2 SCli MCli LCli LCli2 SCliOne LCli7 LCli8 SExact LExact SListing LListing SSuplat LSuplat SOne.
Set Implicit Arguments.
Unset Strict Implicit.
Open Scope list_scope.
Open Scope nat_scope.
Notation length := List.length.
Notation "a +++ b" := (String.append a b) (at level 60, right associativity).

Lemma without_incl A (P : A -> Prop) l l' x : without P l l' -> In x l' -> In x l.
Proof. intros W. induction W; cbn; [tauto|auto|]. intros [->|I]; auto. Qed.
Lemma render_text dump m f g t : length (positions g) = length (numbers g) -> mode_format m f -> render dump f g = Ok t -> text_of_cell dump m g t.
Proof.
  intros L [[-> ->]|[-> ->]] R.
  - assert (C : choose ".yaml" None = Some Fyaml) by (vm_compute; reflexivity).
    destruct (render_exact L C R) as (com & F & Y & _). left. split; [reflexivity|].
    assert (K : yaml_named ".yaml" None) by (apply (choose_spec ".yaml" None); exact C). destruct (Y K) as (d & D & T). exists com, d. auto.
  - assert (C : choose ".vasp" None = Some Fvasp) by (vm_compute; reflexivity).
    destruct (render_exact L C R) as (com & F & _ & V). right. split; [reflexivity|]. apply V.
    intros K. apply (proj1 (choose_spec ".vasp" None)) in K. congruence.
Qed.
Lemma delivered_exact dump said infile tag m g fs r : length (positions g) = length (numbers g) ->
  delivered dump said infile tag m g fs r -> exact_delivery dump said infile tag m g fs r.
Proof.
  intros L. destruct m as [m|]; cbn [delivered exact_delivery].
  - intros (name & f & t & N & M & R & ->). exists name, t. split; [exact N|]. split; [exact (render_text L M R)|]. cbn [fst snd].
    split; [unfold put; now rewrite String.eqb_refl|]. split; [|reflexivity]. intros p K. unfold put. apply String.eqb_neq in K. now rewrite K.
  - intros (t & R & ->). exists t. split; [exact (render_text L (or_intror (conj eq_refl eq_refl)) R)|]. cbn. auto.
Qed.
Lemma text_of_cell_fun dump m c t t' : text_of_cell dump m c t -> text_of_cell dump m c t' -> t = t'.
Proof.
  intros [(E & com & d & F & D & ->)|(E & P)] [(E' & com' & d' & F' & D' & ->)|(E' & P')]; try congruence.
  - rewrite (formula_unique F' F) in D'. now rewrite (six_doc_fun D D').
  - exact (poscar_exact_fun P P').
Qed.
Lemma delivery_fun dump said infile tag m c fs r r' : exact_delivery dump said infile tag m c fs r -> exact_delivery dump said infile tag m c fs r' ->
  snd r = snd r' /\ forall p, fst r p = fst r' p.
Proof.
  destruct m as [m|]; cbn [exact_delivery].
  - intros (n & t & N & T & A & B & S) (n' & t' & N' & T' & A' & B' & S').
    assert (n' = n) by (apply result_name_iff in N; apply result_name_iff in N'; congruence). subst n'.
    rewrite <- (text_of_cell_fun T T') in A'. split; [congruence|]. intros p. destruct (string_dec p n) as [->|K]; [congruence|]. now rewrite B, B'.
  - intros (t & T & A & S) (t' & T' & A' & S'). rewrite <- (text_of_cell_fun T T') in S'. split; [congruence|]. intros p. now rewrite A, A'.
Qed.
Lemma cell_with_fun lat ats g g' : SSym.distinct_sites (positions g) -> cell_with lat ats g -> cell_with lat ats g' -> g = g'.
Proof.
  intros D (FC & LC & P) (FC' & LC' & P'). destruct (constructor_again FC) as (G & L & _). destruct (constructor_again FC') as (G' & L' & _).
  assert (E : GeneralCell_new (lattice g) (positions g) (numbers g) = GeneralCell_new (lattice g) (positions g') (numbers g')).
  { apply C09_order_independent; [exact L|exact L'| |exact D]. now rewrite P, P'. }
  rewrite LC in E at 2. rewrite <- LC' in E. rewrite G, G' in E. now injection E.
Qed.
Lemma new_cell_with lat pos nums g : length pos = length nums -> GeneralCell_new lat pos nums = Ok g -> cell_with lat (combine pos nums) g.
Proof.
  intros L E. split; [exists lat, pos, nums; auto|]. split; [|exact (C08_atoms_preserved _ _ _ _ L E)].
  destruct (GeneralCell_new_inv _ _ _ E) as [N _]. rewrite GeneralCell_new_ok in E by (auto; lia). now injection E as <-.
Qed.
Lemma cell_with_lengths lat ats g : cell_with lat ats g -> length (positions g) = length (numbers g).
Proof. intros (F & _). now destruct (constructor_again F). Qed.

Lemma supcell_exact dump cell infile a b c m fs : positions cell <> [] -> length (positions cell) = length (numbers cell) ->
  Forall supported (numbers cell) -> (0 < a)%Z -> (0 < b)%Z -> (0 < c)%Z -> (a * b * c < 100000)%Z -> known_mode m ->
  exists g r, cmd_supcell dump cell infile (V3 a b c) m fs = Ok r /\
    exact_supercell cell (V3 (V3 a 0 0) (V3 0 b 0) (V3 0 0 c))%Z g /\ exact_delivery dump (notice infile) infile "_SUPC" m g fs r.
Proof.
  intros NE L S A B C V M. set (H := (V3 (V3 a 0 0) (V3 0 b 0) (V3 0 0 c))%Z : mat Z).
  assert (D : zdet H = (a * b * c)%Z) by (unfold H, zdet; cbn [vx vy vz]; ring).
  assert (P : (0 < a * b * c)%Z) by (apply Z.mul_pos_pos; [apply Z.mul_pos_pos|]; assumption).
  assert (U : upper H) by (unfold H, upper; cbn [vx vy vz]; auto).
  assert (NN : nonneg_mat H) by (unfold H, nonneg_mat; cbn [vx vy vz]; lia).
  destruct (@C37_supercell_same_crystal cell H NE L NN (or_introl U)) as (g & E & EL & EN & EM & _ & EC); [lia|].
  pose proof (tri_det (or_introl U)) as TD.
  destruct (@build_exact cell H NE L NN) as (g' & E' & X); [lia|lia|]. unfold supercell in E. rewrite E in E'. injection E' as <-.
  assert (SG : Forall supported (numbers g)) by exact (@same_numbers_supported cell L S g EM EC).
  destruct (@deliver_total dump (notice infile) infile "_SUPC" m g fs tag_supc M SG) as (r & R).
  exists g, r. split; [unfold cmd_supcell, supercell; cbn [vx vy vz]; fold H; rewrite E; exact R|]. split; [exact X|].
  apply delivered_exact; [auto|]. apply deliver_spec; [exact tag_supc|exact M|exact R].
Qed.
Lemma pcell_exact std dump cell infile m fs : known_mode m -> Forall supported (numbers cell) -> standardized (cell_of cell) (std (cell_of cell)) ->
  exists g r, cmd_pcell std dump cell infile m fs = Ok r /\ exact_primitive std cell g /\
    exact_delivery dump (match m with None => ""%string | Some _ => notice infile end) infile "_PRIMC" m g fs r.
Proof.
  intros M S ST. destruct (@pcell_total std dump cell infile m fs M S ST) as (_ & r & E & _).
  pose proof E as E'. apply (proj1 (@pcell_spec std dump cell infile m fs r M)) in E' as (g & G & D). exists g, r. split; [exact E|].
  unfold get_refined_pcell in G. unfold cell_of in ST. destruct (std (lattice cell, positions cell, numbers cell)) as [[lat pos] nums] eqn:ES.
  destruct ST as (_ & L & _). pose proof (new_cell_with L G) as W.
  split; [exists lat, pos, nums; auto|]. apply delivered_exact; [exact (cell_with_lengths W)|exact D].
Qed.
Lemma to_gcell_with h c g ats : to_gcell h c = Ok g -> Permutation (atoms g) ats -> cell_with (lattice g) ats g.
Proof.
  unfold to_gcell. intros E P. assert (L : length (mc_positions h c) = length (mc_numbers h c)) by (unfold mc_positions, mc_numbers; now rewrite !map_length).
  split; [eexists _, _, _; eauto|]. auto.
Qed.

Section Two.
Variables (std : mat Qc * list (vec Qc) * list Z -> mat Qc * list (vec Qc) * list Z) (dump : ydoc -> string).
Lemma atclear_exact cell infile cenele r ele s1 s2 fuel fs : positions cell <> [] -> length (positions cell) = length (numbers cell) ->
  Forall supported (numbers cell) -> Specie_new cenele = Ok s1 -> Specie_new ele = Ok s2 -> length (positions cell) < fuel ->
  exists rest, cleared cell (sp_Z s1) r (sp_Z s2) rest /\
    (rest = [] -> forall refined, cmd_atclear std dump fuel cell infile cenele r ele refined fs = Some (Raise ValueError)) /\
    (rest <> [] -> exists g, cell_with (lattice cell) rest g /\
       (exists x, cmd_atclear std dump fuel cell infile cenele r ele false fs = Some (Ok x) /\
          exact_delivery dump (notice infile) infile "_ACLR" (Some "vasp"%string) g fs x) /\
       (standardized (cell_of g) (std (cell_of g)) -> exists g' x, exact_primitive std g g' /\
          cmd_atclear std dump fuel cell infile cenele r ele true fs = Some (Ok x) /\
          exact_delivery dump (notice infile) infile "_ACLR" (Some "vasp"%string) g' fs x)).
Proof.
  intros NE L S E1 E2 FU. destruct (start NE L S) as (hp & c & ss & E & W & X & M & _).
  assert (FU' : length ss < fuel) by (rewrite <- (map_length pair_of), M, (atoms_length L); exact FU).
  destruct (@C49_removes hp c (lattice cell) ss s1 r (Some s2) fuel W X FU') as (h' & ss' & V & W' & X' & WO & _).
  assert (CL : cleared cell (sp_Z s1) r (sp_Z s2) (map pair_of ss')).
  { unfold cleared. rewrite <- M. apply without_map. eapply without_ext; [|exact WO]. intros s. cbn.
    split; [intros (A & ce & I & B & D); split; [exact A|]; exists (pair_of ce); split; [apply in_map_iff; eauto|auto]|].
    intros (A & b & I & B & D). split; [exact A|]. apply in_map_iff in I as (ce & <- & I). exists ce. auto. }
  exists (map pair_of ss'). split; [exact CL|].
  unfold cmd_atclear. rewrite E, E1, E2. cbn [bind]. rewrite V.
  destruct (C43_to_gcell h' c (lattice cell) ss' W' X') as [T1 T2]. split.
  - intros N refined. apply map_eq_nil in N. rewrite (T1 N). reflexivity.
  - intros N. assert (N' : ss' <> []) by (intros ->; auto). destruct (T2 N') as (g & T & LT & LN & P). rewrite T. cbn [bind].
    pose proof (to_gcell_with T P) as CW. rewrite LT in CW. exists g. split; [exact CW|].
    assert (SG : Forall supported (numbers g)).
    { apply Forall_forall. intros z I. rewrite <- (map_snd_combine _ _ LN) in I.
      apply (Permutation_in z (Permutation_map snd P)) in I. apply in_map_iff in I as (a & <- & I).
      pose proof (without_incl CL I) as J. unfold atoms in J. destruct a as [q z]. apply in_combine_r in J. rewrite Forall_forall in S. exact (S _ J). }
    split.
    + destruct (@deliver_total dump (notice infile) infile "_ACLR" (Some "vasp"%string) g fs tag_aclr mode_vasp SG) as (x & D).
      exists x. split; [exact (f_equal Some D)|]. apply delivered_exact; [exact LN|]. apply deliver_spec; [exact tag_aclr|exact mode_vasp|exact D].
    + intros ST. destruct (@refined_spec std g ST) as (g' & RG & MO & _ & LG).
      destruct (@deliver_total dump (notice infile) infile "_ACLR" (Some "vasp"%string) g' fs tag_aclr mode_vasp (motion_numbers LG MO SG)) as (x & D).
      exists g', x. split.
      { unfold get_refined_pcell in RG. unfold cell_of in ST. destruct (std (lattice g, positions g, numbers g)) as [[lat pos] nums] eqn:ES.
        destruct ST as (_ & LL & _). exists lat, pos, nums. split; [exact ES|exact (new_cell_with LL RG)]. }
      split; [|apply delivered_exact; [exact LG|]; apply deliver_spec; [exact tag_aclr|exact mode_vasp|exact D]].
      cbn [final_cell]. unfold final_cell. rewrite RG. cbn [bind]. exact (f_equal Some D).
Qed.
Lemma perturb_exact cell infile r rnd us fs : positions cell <> [] -> length (positions cell) = length (numbers cell) ->
  Forall supported (numbers cell) -> SModCell.volume (lattice cell) <> 0%Qc ->
  without (fun d : vec Qc * Qc => snd d = 0%Qc) rnd us -> length (positions cell) <= length us ->
  exists new g x, shaken cell r us new /\ cell_with (lattice cell) new g /\
    cmd_perturb dump cell infile r rnd fs = Some (Ok x) /\ exact_delivery dump (notice infile) infile "_PURB" (Some "vasp"%string) g fs x.
Proof.
  intros NE L S V U LU.
  destruct (@perturb_cmd_spec dump cell infile r rnd us fs NE L S V U LU) as (new & g & SH & LT & LN & PM & x & E & D).
  destruct (start NE L S) as (hp & c & ss & E0 & W & X & M & rs & HR & ND & LR).
  assert (LS : length ss = length (positions cell)) by (rewrite <- (map_length pair_of), M; apply atoms_length; exact L).
  assert (LU' : length rs <= length us) by lia.
  destruct (@C46_perturb hp c rs (lattice cell) ss r rnd us W HR ND X V U LU') as (h' & ss' & P & X' & LL & K).
  assert (W' : wf_heap h').
  { assert (C : is_cell hp c) by (apply contains_iff in X; [apply X|exact W]).
    exact (proj1 (perturb_frame W C P)). }
  destruct (C43_to_gcell h' c (lattice cell) ss' W' X') as [_ T2].
  assert (N' : ss' <> []). { intros ->. destruct ss; [|discriminate]. destruct (positions cell); [congruence|discriminate]. }
  destruct (T2 N') as (g1 & T & LT1 & LN1 & PM1). pose proof (to_gcell_with T PM1) as CW. rewrite LT1 in CW.
  exists (map pair_of ss'), g1, x. split.
  { split; [rewrite map_length, <- M, map_length; exact LL|]. intros k a A. rewrite <- M, nth_error_map in A.
    destruct (nth_error ss k) as [s|] eqn:Es; [|discriminate]. injection A as <-.
    destruct (K k s Es) as (s' & v & n & K1 & K2 & [K3 K4] & K5). exists (pair_of s'), v, n.
    split; [rewrite nth_error_map, K1; reflexivity|]. split; [exact K2|]. cbn. split; [now rewrite K3|]. auto. }
  split; [exact CW|]. split; [exact E|]. apply delivered_exact; [exact LN1|].
  apply (@deliver_spec dump (notice infile) infile "_PURB" (Some "vasp"%string) g1 fs x tag_purb mode_vasp).
  unfold cmd_perturb in E. rewrite E0, P, T in E. cbn [bind] in E. injection E as E. exact E.
Qed.
End Two.
