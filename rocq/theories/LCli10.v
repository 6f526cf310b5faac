(** Reading back what the enumerating commands write. *)
From Coq Require Import String Ascii Permutation.
From Verif Require Import Base BaseQ LBase SElement MElement LElement SSubst SSym SOcc MGeneralCell SGeneralCell LGeneralCell MSogen
  MText LText MIO SIO LIO LIO2 LIO3 LIO4 LIO6 SLattice SShape LShape SCliRead SCli MCli SCliApp LCli LCli3 SCliOne LCli7 LCli8 LCli9.
Set Implicit Arguments.
Unset Strict Implicit.
Open Scope list_scope.
Open Scope nat_scope.
Notation length := List.length.
Notation "a +++ b" := (String.append a b) (at level 60, right associativity).

Section R.
Context (dump : ydoc -> string) (load : string -> res ydoc) (cbrt : Qc -> Qc).

Lemma file_read g p f t fs : Forall supported (numbers g) -> length (positions g) = length (numbers g) -> some_atom (numbers g) ->
  p <> ""%string -> choose p None = Some f -> render dump f g = Ok t -> (forall d, yaml_doc g = Ok d -> load (dump d) = Ok d) -> fs p = Some t ->
  reads_as load cbrt fs p g.
Proof.
  intros S L N NE C R LD E. destruct (choose_spec p None) as (CY & CV & _).
  assert (YV : yaml_named p None \/ vasp_named p None) by (destruct f; [left; apply CY|right; apply CV]; exact C).
  destruct (@round_trip dump load cbrt g p None fs S L N NE YV LD) as (fs' & g' & atoms & pos & W & F & A & Y & V & P & Q).
  assert (YN : yaml_named p None <-> contains_any_case ".yaml" p).
  { split; [intros [(x & K & _)|K]; [discriminate|exact K]|intros K; now right]. }
  exists f, g'. split; [|split; [|split]].
  - intros K. apply YN in K. apply CY in K. congruence.
  - intros K. destruct f; [|reflexivity]. exfalso. apply K, YN, CY, C.
  - rewrite <- F. unfold write_file in W. rewrite C, R in W. cbn [bind] in W. destruct (String.eqb_spec p ""); [congruence|]. injection W as <-.
    unfold from_file. rewrite C, E. unfold put. rewrite String.eqb_refl. reflexivity.
  - split; [exact A|]. exists atoms, pos. split; [|split; [exact P|exact Q]].
    destruct f; [apply Y, CY, C|apply V; intros K; apply CY in K; congruence].
Qed.

(** The document of the old writer is not rounded. *)
Lemma legacy_read g p names fs : length (positions g) = length (numbers g) -> positions g <> [] ->
  contains_any_case ".yaml" p -> (forall d, load (dump d) = Ok d) ->
  fs p = Some (dump (mkY (comment_of (ordered_atoms names)) (lattice g) (positions g) (numbers g) 1%Qc)) ->
  reads_as load cbrt fs p g.
Proof.
  intros L NE Y LD E. destruct (choose_spec p None) as (CY & _). assert (C : choose p None = Some Fyaml) by (apply CY; right; exact Y).
  set (pos := List.map (vmap (around 4)) (positions g)).
  assert (LP : length pos = length (numbers g)) by (unfold pos; rewrite map_length; exact L).
  assert (NP : pos <> []) by (unfold pos; destruct (positions g); [congruence|discriminate]).
  destruct (make_cell (vmap (vmap (fun x => around 4 (x * 1)%Qc)) (lattice g)) NP LP) as (g' & G & GL & GP).
  assert (W : forall x, within read_tol x (around 4 x)) by (intros x; apply around4_within; split; apply Qcle_minus_iff; ring_simplify; discriminate).
  exists Fyaml, g'. split; [reflexivity|]. split; [intros K; contradiction|]. split.
  - unfold from_file. rewrite C, E. cbn [read_text]. rewrite LD. cbn [bind]. exact G.
  - split; [rewrite GL; destruct (lattice g) as [[a1 a2 a3] [b1 b2 b3] [c1 c2 c3]]; unfold mwithin, vwithin; cbn [vmap vx vy vz]; repeat split; rewrite Qcmult_1_r; apply W|].
    exists (combine (positions g) (numbers g)), pos. split; [reflexivity|]. rewrite (combine_fst L), (combine_snd L). split; [|exact GP].
    unfold pos. clear - W. induction (positions g) as [|v l IH]; cbn [List.map]; constructor; [|exact IH].
    destruct v as [a b c]. unfold vwithin. cbn [vmap vx vy vz]. split; [|split]; apply W.
Qed.

Lemma refined_lengths std c c' : get_refined_pcell std c = Ok c' -> length (positions c') = length (numbers c').
Proof.
  unfold get_refined_pcell. destruct (std _) as [[lat pos] nums]. unfold GeneralCell_new. intros E.
  destruct (get_new_id_seq pos) as [ix|]; [|discriminate]. cbn [bind] in E.
  destruct (take_idx pos ix) as [p|] eqn:P; [|discriminate]. cbn [bind] in E.
  destruct (take_idx nums ix) as [n|] eqn:N; [|discriminate]. cbn [bind] in E. injection E as <-. cbn.
  unfold take_idx in *. rewrite (mapM_length _ _ P), (mapM_length _ _ N). reflexivity.
Qed.
Lemma written_lengths std refined c c' : length (positions c) = length (numbers c) -> written_cell (get_refined_pcell std) refined c c' ->
  length (positions c') = length (numbers c').
Proof. unfold written_cell. destruct refined; [intros _; apply refined_lengths|intros L ->; exact L]. Qed.
Lemma written_fun std refined c c1 c2 : written_cell (get_refined_pcell std) refined c c1 -> written_cell (get_refined_pcell std) refined c c2 -> c1 = c2.
Proof. unfold written_cell. destruct refined; congruence. Qed.
Lemma constructor_lengths c : from_constructor c -> length (positions c) = length (numbers c).
Proof.
  intros (lat & pos & nums & L & E). unfold GeneralCell_new in E.
  destruct (get_new_id_seq pos) as [ix|]; [|discriminate]. cbn [bind] in E.
  destruct (take_idx pos ix) as [p|] eqn:P; [|discriminate]. cbn [bind] in E.
  destruct (take_idx nums ix) as [n|] eqn:N; [|discriminate]. cbn [bind] in E. injection E as <-. cbn.
  unfold take_idx in *. rewrite (mapM_length _ _ P), (mapM_length _ _ N). reflexivity.
Qed.

Lemma indexed_forall2 A B (R : A -> B -> Prop) l m : indexed (fun _ => R) l m -> Forall2 R l m.
Proof.
  intros [L H]. revert m L H. induction l as [|x l IH]; intros [|y m] L H; try discriminate L; constructor.
  - exact (H 0 x y eq_refl eq_refl).
  - apply IH; [now injection L|]. intros k a b Ea Eb. exact (H (S k) a b Ea Eb).
Qed.

(** One readable file for each class, if different files draw different suffixes. *)
Lemma class_read psize std a tr o D dir suffix m fs r : class_result psize std dump a tr o D dir suffix fs r ->
  (forall k, String.length (suffix k) = m) ->
  enough_suffixes (equivalent (sym_perm o)) (fun x => D x /\ wanted psize (a_mpr a) tr (decorated (a_cell a) x)) suffix -> from_constructor (a_cell a) ->
  (forall x, D x -> writable std (a_refined a) (decorated (a_cell a) x)) ->
  (forall x c, D x -> written_cell (get_refined_pcell std) (a_refined a) (decorated (a_cell a) x) c -> some_atom (numbers c)) ->
  (forall d, load (dump d) = Ok d) ->
  one_readable_file_each load cbrt (equivalent (sym_perm o)) (fun x => D x /\ wanted psize (a_mpr a) tr (decorated (a_cell a) x))
    (fun y => written_cell (get_refined_pcell std) (a_refined a) (decorated (a_cell a) y)) fs (o_files r).
Proof.
  intros (_ & kept & ws & FR & T & I & AW) LS DS FC HW HA LD.
  assert (SD : suffixes_distinct (get_refined_pcell std) (a_refined a) suffix kept) by
    (intros i j ? ? ? ? Lt _ Ej _ _ _; apply (DS _ T); rewrite map_length; split; [exact Lt|apply nth_error_Some; congruence]).
  destruct (aw_each AW (distinct_paths LS SD I)) as (ND & W & O).
  exists (List.map fst ws), (List.map numbers kept). split; [exact ND|]. split; [exact O|]. split; [exact T|].
  assert (K : forall k c w, nth_error kept k = Some c -> nth_error ws k = Some w ->
    exists c', written_cell (get_refined_pcell std) (a_refined a) (decorated (a_cell a) (numbers c)) c' /\ reads_as load cbrt (o_files r) (fst w) c').
  { intros k c [p t] Ec Ew. destruct (proj2 I k c (p, t) Ec Ew) as (c' & com & f & E1 & E2 & E3 & E4 & E5). cbn [fst snd] in *.
    assert (Ic : In c kept) by (eapply nth_error_In; eauto). rewrite Forall_forall in FR. specialize (FR c Ic).
    pose proof (frame_decorated FR) as Dc. rewrite Dc in E1. cbn [numbers decorated] in E1.
    assert (Dn : D (numbers c)). { destruct T as [FT _]. rewrite Forall_forall in FT. apply (FT (numbers c)). now apply in_map. }
    exists c'. split; [exact E1|]. destruct (HW _ Dn) as (c2 & W2 & S2). pose proof (written_fun W2 E1). subst c2.
    apply (@file_read c' p f t); [exact S2| |eapply HA; eauto| |exact E4|exact E5|intros d _; apply LD|apply W; eapply nth_error_In; eauto].
    - refine (@written_lengths std (a_refined a) _ c' _ E1). cbn [positions numbers decorated]. destruct FR as (_ & _ & _ & Ln & _). rewrite Ln. apply constructor_lengths, FC.
    - rewrite E3. intros Z. destruct dir; discriminate Z. }
  apply indexed_forall2. split; [rewrite !map_length; symmetry; exact (proj1 I)|]. intros k p y Ep Ey.
  rewrite nth_error_map in Ep, Ey. destruct (nth_error ws k) as [w|] eqn:Ew; [|discriminate]. destruct (nth_error kept k) as [c|] eqn:Ec; [|discriminate].
  injection Ep as <-. injection Ey as <-. exact (K k c w Ec Ew).
Qed.

Lemma ends_yaml a : contains_any_case ".yaml" (a +++ ".yaml").
Proof. exists a, ".yaml"%string, ""%string. split; [repeat constructor|reflexivity]. Qed.
Lemma ends_vasp a : ends_any_case ".vasp" (a +++ ".vasp").
Proof. exists a, ".vasp"%string. split; [repeat constructor|reflexivity]. Qed.
Lemma append_assoc a b c : (a +++ b) +++ c = a +++ (b +++ c).
Proof. induction a as [|x a IH]; [reflexivity|]. cbn. now rewrite IH. Qed.

Lemma ternary_file_read std refined mode dir n0 n1 n2 c c' w fs : ternary_file (get_refined_pcell std) dump refined mode dir n0 n1 n2 c w ->
  length (positions c) = length (numbers c) -> written_cell (get_refined_pcell std) refined c c' -> Forall supported (numbers c') -> some_atom (numbers c') ->
  (forall d, load (dump d) = Ok d) -> fs (fst w) = Some (snd w) -> (mode = "vasp"%string -> ~ contains_any_case ".yaml" (fst w)) ->
  reads_as load cbrt fs (fst w) c'.
Proof.
  intros (c2 & x & W2 & T & EP) L W S A LD F NY. pose proof (written_fun W2 W). subst c2.
  pose proof (written_lengths L W) as L'. destruct w as [p t]. cbn [fst snd] in *. unfold ternary_text in T.
  destruct (String.eqb_spec mode "vasp") as [M|M].
  - destruct (choose_spec p None) as (CY & CV & _).
    assert (C : choose p None = Some Fvasp).
    { apply CV. split; [intros [(y & K & _)|K]; [discriminate|exact (NY M K)]|]. right. left. rewrite EP.
      repeat (rewrite <- append_assoc). apply ends_vasp. }
    apply (@file_read c' p Fvasp t); auto. rewrite EP. intros Z. destruct dir; discriminate Z.
  - destruct T as (names & _ & ->). apply (@legacy_read c' p names); [exact L'| | |exact LD|exact F].
    + intros Z. rewrite Z in L'. destruct A as (z & I & _). destruct (numbers c'); [destruct I|discriminate L'].
    + rewrite EP. repeat (rewrite <- append_assoc). apply ends_yaml.
Qed.

Lemma ternary_read psize std N a tr o v1 v2 comps dir fs r : ternary_result psize std dump N a tr o v1 v2 comps dir fs r ->
  from_constructor (t_cell a) -> ternary_inputs psize std a tr o v1 v2 comps ->
  (forall n1 n2 x c, In (n1, n2) comps -> two_fold (numbers (t_cell a)) n1 v1 n2 v2 x ->
     written_cell (get_refined_pcell std) (t_refined a) (decorated (t_cell a) x) c -> some_atom (numbers c)) ->
  (forall d, load (dump d) = Ok d) ->
  readable_by_composition load cbrt N (t_outmode a) (equivalent (sym_perm o))
    (fun n x => two_fold (numbers (t_cell a)) (fst n) v1 (snd n) v2 x /\ wanted psize (t_mpr a) tr (decorated (t_cell a) x))
    (fun y => written_cell (get_refined_pcell std) (t_refined a) (decorated (t_cell a) y)) comps fs (o_files r).
Proof.
  intros (_ & out & ws & T & F & NR) FC TI HA LD.
  exists (fun n => List.map numbers (out n)), (List.map fst ws). split; [intros [n1 n2] I; apply (T n1 n2 I)|].
  intros n FA RM. rewrite map_length in RM. destruct (NR n FA RM) as [(ND & W & O) NEW]. split; [exact ND|]. split; [exact NEW|]. split; [exact O|].
  assert (E : flat_map (fun n => map numbers (out n)) comps = map (fun cn => numbers (fst cn)) (flat_map (fun n => map (fun c => (c, n)) (out n)) comps)).
  { clear. induction comps as [|k comps IH]; [reflexivity|]. cbn [flat_map]. rewrite map_app, map_map, IH. reflexivity. }
  rewrite E. set (cns := flat_map (fun n => map (fun c => (c, n)) (out n)) comps) in *.
  assert (IN : forall cn, In cn cns -> In (snd cn) comps /\ In (fst cn) (out (snd cn))).
  { intros [c k] I. apply in_flat_map in I as (k' & I1 & I2). apply in_map_iff in I2 as (c' & [= <- <-] & I2). auto. }
  clearbody cns. clear E ND NEW O NR RM FA. revert IN W. induction F as [|cn w cns ws H F IH]; intros IN W; [constructor|]. cbn [map].
  constructor; [|apply IH; [intros x I; apply IN; now right|intros p t I; apply W; now right]].
  intros NY. destruct cn as [c [n1 n2]]. destruct (IN _ (or_introl eq_refl)) as [I1 I2]. cbn [fst snd] in *.
  destruct (T n1 n2 I1) as [FR TR]. rewrite Forall_forall in FR. specialize (FR c I2). destruct (TI n1 n2 I1) as [HW _].
  assert (Dn : two_fold (numbers (t_cell a)) n1 v1 n2 v2 (numbers c)). { destruct TR as [FT _]. rewrite Forall_forall in FT. apply (FT (numbers c)). now apply in_map. }
  destruct (HW _ Dn) as (c' & W' & S'). exists c'. split; [exact W'|].
  pose proof (frame_decorated FR) as Dc. rewrite Dc in H. cbn [numbers decorated] in H.
  eapply ternary_file_read; [exact H| |exact W'|exact S'|eapply HA; eauto|exact LD| |exact NY].
  - cbn [positions numbers decorated]. destruct FR as (_ & _ & _ & Ln & _). rewrite Ln. apply constructor_lengths, FC.
  - destruct w as [p t]. apply W. now left.
Qed.

Lemma superlattice_read mode dir v u suffix h p t fs : superlattice_file dump mode dir v u suffix h (p, t) ->
  length (positions u) = length (numbers u) -> Forall supported (numbers u) -> some_atom (numbers u) ->
  (forall d, load (dump d) = Ok d) -> fs p = Some t -> exists g, stands_for u h g /\ reads_as load cbrt fs p g.
Proof.
  intros (c & g & f & E1 & E2 & E3 & E4 & E5 & E6 & _ & E8 & E9 & E10) LU SU AU LD F. cbn [fst snd] in *. exists g. split; [exists c; auto|].
  assert (SC : Forall supported (numbers c)) by exact (@same_numbers_supported u LU SU c (eq_sym E5) E2).
  assert (AC : some_atom (numbers c)) by (eapply crystal_some_atom; [exact LU| |exact AU]; intros z x H; apply E2 in H; eauto).
  apply (@file_read g p f t); [|exact E6| |rewrite E8; intros Z; destruct dir; discriminate Z|exact E9|exact E10|intros d _; apply LD|exact F].
  - rewrite Forall_forall in *. intros z I. apply SC. exact (Permutation_in z E4 I).
  - destruct AC as (z & I & N). exists z. split; [exact (Permutation_in z (Permutation_sym E4) I)|exact N].
Qed.
Lemma superlattices_read mode dir v u suffix hs ws E D fs fs' : indexed (fun k => superlattice_file dump mode dir v u (suffix k)) hs ws ->
  transversal E D hs -> each_has_its_file fs ws fs' ->
  length (positions u) = length (numbers u) -> Forall supported (numbers u) -> some_atom (numbers u) ->
  (forall d, load (dump d) = Ok d) -> one_readable_file_each load cbrt E D (stands_for u) fs fs'.
Proof.
  intros [L I] T (ND & W & O) LU SU AU LD. exists (List.map fst ws), hs. split; [exact ND|]. split; [exact O|]. split; [exact T|].
  apply indexed_forall2. split; [rewrite map_length; now symmetry|]. intros k p h Ep Eh. rewrite nth_error_map in Ep.
  destruct (nth_error ws k) as [[q t]|] eqn:Ew; [|discriminate]. injection Ep as <-.
  eapply superlattice_read; [exact (I k h (q, t) Eh Ew)|exact LU|exact SU|exact AU|exact LD|]. apply W. eapply nth_error_In; eauto.
Qed.
End R.
