(** Reading back what the commands print. *)
From Coq Require Import String Ascii Permutation.
From Verif Require Import Base BaseQ LBase SElement MElement LElement SSubst MGeneralCell SGeneralCell
  MText LText MIO SIO LIO LIO2 LIO3 LIO4 LIO6 LSuper LCrystal SCliRead SLattice SShape LShape SCli MCli SCliOne LCli7 LCli8.
Set Implicit Arguments.
Unset Strict Implicit.
Open Scope list_scope.
Open Scope nat_scope.
Notation length := List.length.
Notation "a +++ b" := (String.append a b) (at level 60, right associativity).
Definition eol : string := String "010" EmptyString.

Lemma split_on_eol t : forall cur, split_on newline cur (t +++ eol) = split_on newline cur t ++ [""%string].
Proof.
  induction t as [|c t IH]; intros cur; [reflexivity|]. cbn [String.append split_on]. destruct (Ascii.eqb c newline); [|apply IH].
  rewrite IH. reflexivity.
Qed.
Lemma from_string_eol cbrt t : from_string cbrt (t +++ eol) = from_string cbrt t.
Proof.
  unfold from_string, split_lines. rewrite split_on_eol. rewrite filter_app. cbn [filter blank negb]. rewrite app_nil_r. reflexivity.
Qed.

(** a text that starts with a letter is no number *)
Definition is_letter (c : ascii) : bool := let n := nat_of_ascii c in ((65 <=? n) && (n <=? 90)) || ((97 <=? n) && (n <=? 122)).
Lemma letter_facts c : is_letter c = true -> is_space c = false /\ Ascii.eqb c "-" = false /\ Ascii.eqb c "+" = false /\ digit_val c = None /\ Ascii.eqb c "." = false.
Proof.
  destruct c as [b0 b1 b2 b3 b4 b5 b6 b7].
  destruct b0, b1, b2, b3, b4, b5, b6, b7; vm_compute; intros H; try discriminate H; repeat split.
Qed.
Lemma parse_float_letter c s : is_letter c = true -> parse_float (String c s) = Raise ValueError.
Proof.
  intros H. destruct (letter_facts H) as (A & B & C & D & E). unfold parse_float. cbn [lstrip]. rewrite A. cbn [read_sign]. rewrite B, C.
  cbn [span_digits]. rewrite D, E. reflexivity.
Qed.
Lemma element_letter z s : is_element z s -> exists c r, s = String c r /\ is_letter c = true.
Proof.
  intros E. apply spec_pairs_iff in E. revert E.
  assert (K : forallb (fun p : Z * string => match snd p with String c _ => is_letter c | EmptyString => false end) spec_pairs = true) by (vm_compute; reflexivity).
  rewrite forallb_forall in K. intros I. apply K in I. cbn [snd] in I. destruct s as [|c r]; [discriminate|]. eauto.
Qed.
Lemma comment_letter g names zs syms : written g names zs syms -> zs <> [] -> exists c r, comment_of (ordered_atoms names) = String c r /\ is_letter c = true.
Proof.
  intros W N. rewrite (w_ord W). pose proof (w_syms W) as F. destruct F as [|z s zs syms H F]; [congruence|].
  destruct (element_letter H) as (c & r & -> & L). exists c. cbn [combine map]. unfold comment_of. cbn [map fst snd String.concat].
  destruct (map _ (combine syms _)) as [|x l]; cbn [String.append]; eauto.
Qed.

Lemma blank_letter c s : is_letter c = true -> blank (String c s) = false.
Proof. intros H. destruct (letter_facts H) as (A & _). cbn. rewrite A. reflexivity. Qed.
Lemma announced_read cbrt g dump infile t : Forall supported (numbers g) -> length (positions g) = length (numbers g) -> one_line infile ->
  render dump Fvasp g = Ok t ->
  from_string cbrt (notice infile +++ t) = Raise (if existsb (fun z => negb (Z.eqb z 0)) (numbers g) then ValueError else KeyError).
Proof.
  intros S L O R. cbn [render] in R. destruct (VaspOutput_new_ok 1 S L) as (names & zs & syms & E' & W). rewrite E' in R. cbn [bind] in R. injection R as <-.
  assert (P : split_lines (notice infile +++ get_string (mkVO g names 1) true) = ("PROCESSING: " +++ infile) :: all_lines g names zs syms 1 true ++ [""%string]).
  { unfold notice. rewrite <- app_assoc_s, app_assoc_s. change (String "010" EmptyString +++ get_string (mkVO g names 1) true) with (String newline (get_string (mkVO g names 1) true)).
    rewrite split_lines_cons.
    - f_equal. rewrite (get_string_eq 1 true W). apply split_text, (lines_no_nl 1 true W).
    - rewrite allc_app, (one_line_allc O). reflexivity. }
  unfold from_string. rewrite P. cbn [filter]. change (blank ("PROCESSING: " +++ infile)) with false. cbn [negb].
  destruct (list_eq_dec Z.eq_dec zs []) as [Z|Z].
  - subst zs. pose proof (w_syms W) as F. inversion F; subst syms. replace (existsb _ (numbers g)) with false.
    2:{ symmetry. apply Bool.not_true_iff_false. rewrite existsb_exists. intros (z & I & Nz). apply (proj2 (w_cover W z)). split; [exact I|]. apply negb_true_iff, Z.eqb_neq in Nz. exact Nz. }
    unfold all_lines. rewrite (w_ord W). cbn [combine map block_list concat List.app]. cbn [filter].
    change (counts_line g []) with ""%string. change (words_line []) with ""%string. change (comment_of []) with ""%string.
    change (blank "") with true. cbn [negb].
    assert (R : forall v, blank (format_row v) = false) by (intros u; rewrite <- (app_nil_s (format_row u)); apply row_not_blank).
    rewrite !R. change (blank (str_int 1)) with false. cbn [negb get_nth nth_error bind]. rewrite parse_str_int. cbn [bind firstn skipn mapM].
    rewrite !read_lattice_row. cbn [bind rows3]. change (blank (mode_text true)) with false. cbn [negb]. cbn [get_nth nth_error bind].
    change (split (mode_text true)) with ["direct"%string]. cbn [mapM].
    rewrite Specie_new_err; [reflexivity|]. intros z I. apply spec_pairs_iff in I. revert I.
    assert (K : forallb (fun p : Z * string => negb (String.eqb (snd p) "direct")) spec_pairs = true) by (vm_compute; reflexivity).
    rewrite forallb_forall in K. intros I. apply K in I. discriminate I.
  - replace (existsb _ (numbers g)) with true.
    2:{ symmetry. apply existsb_exists. destruct zs as [|z zs]; [congruence|]. exists z. destruct (proj1 (w_cover W z) (or_introl eq_refl)) as [I N].
        split; [exact I|]. apply negb_true_iff, Z.eqb_neq, N. }
    change (fun l => negb (blank l)) with keep. rewrite (lines_kept 1 true W Z). unfold all_lines. destruct (comment_letter W Z) as (c & r & -> & Lc).
    cbn [List.app get_nth nth_error bind]. rewrite (parse_float_letter _ Lc). reflexivity.
Qed.
Lemma announced_read_eol cbrt g dump infile t : Forall supported (numbers g) -> length (positions g) = length (numbers g) -> one_line infile ->
  render dump Fvasp g = Ok t ->
  from_string cbrt (notice infile +++ t +++ eol) = Raise (if existsb (fun z => negb (Z.eqb z 0)) (numbers g) then ValueError else KeyError).
Proof. intros. rewrite <- app_assoc_s, from_string_eol. eapply announced_read; eauto. Qed.

Lemma delivered_read dump load cbrt said infile tag m f g fs r : ~ has_dot tag -> mode_format m f ->
  Forall supported (numbers g) -> length (positions g) = length (numbers g) -> some_atom (numbers g) ->
  (forall d, yaml_doc g = Ok d -> load (dump d) = Ok d) ->
  delivered dump said infile tag (Some m) g fs r ->
  exists name g', result_name infile tag m name /\ from_file load cbrt (Some name) None (fst r) = Ok g' /\ kept_by f g g'.
Proof.
  intros T M S L N LD (name & f' & t & RN & M' & R & ->). assert (f' = f) by (eapply mode_format_fun; eauto). subst f'.
  pose proof (proj1 (result_name_iff _ _ _ _) RN) as EN. pose proof (choose_out infile T M) as C. rewrite <- EN in C.
  assert (NE : name <> ""%string) by (rewrite EN; apply out_name_nonempty).
  destruct (choose_spec name None) as (CY & CV & _).
  assert (YV : yaml_named name None \/ vasp_named name None) by (destruct f; [left; apply CY|right; apply CV]; exact C).
  destruct (@round_trip dump load cbrt g name None fs S L N NE YV LD) as (fs' & g' & atoms & pos & W & F & A & Y & V & P & Q).
  unfold write_file in W. rewrite C, R in W. cbn [bind] in W. destruct (String.eqb_spec name ""); [congruence|]. injection W as <-.
  exists name, g'. split; [exact RN|]. split; [exact F|]. split; [exact A|]. exists atoms, pos. split; [|split; [exact P|exact Q]].
  destruct f; [apply Y, CY, C|apply V; intros K; apply CY in K; congruence].
Qed.

Lemma crystal_some_atom lat pos nums lat' pos' nums' : length pos = length nums ->
  (forall z v, crystal_atom lat pos nums z v -> exists v', crystal_atom lat' pos' nums' z v') -> some_atom nums -> some_atom nums'.
Proof.
  intros L H (z & I & N). apply In_nth_error in I as (i & I).
  destruct (nth_error pos i) as [p|] eqn:P; [|apply nth_error_None in P; assert (i < length nums) by (apply nth_error_Some; congruence); lia].
  destruct (H _ _ (atom_here lat P I)) as (v' & j & p' & s & _ & J & _). exists z. split; [eapply nth_error_In; eauto|exact N].
Qed.
Lemma printed_read cbrt g t dump : Forall supported (numbers g) -> length (positions g) = length (numbers g) -> some_atom (numbers g) ->
  render dump Fvasp g = Ok t -> exists g', vasp_get_cell cbrt (t +++ eol) = Ok g' /\ kept_by Fvasp g g'.
Proof.
  intros S L N R. destruct (@delivered_read dump (fun _ => yaml_doc g) cbrt "" "a" "_S" "vasp" Fvasp g (fun _ => None) (put (fun _ => None) (out_name "a" "_S" "vasp") t, ""%string)) as (name & g' & RN & F & K); auto.
  - intros (a & b & E). destruct a as [|x [|y a]]; try discriminate E. destruct a; discriminate E.
  - right. split; reflexivity.
  - exists (out_name "a" "_S" "vasp"), Fvasp, t. split; [apply result_name_iff; reflexivity|]. split; [right; split; reflexivity|]. split; [exact R|reflexivity].
  - exists g'. split; [|exact K]. unfold vasp_get_cell. rewrite from_string_eol. change (vasp_get_cell cbrt t = Ok g').
    apply result_name_iff in RN. subst name. rewrite <- F. reflexivity.
Qed.

Lemma allc_one_line s : allc no_nl s = true -> one_line s.
Proof. intros H a b ->. rewrite allc_app in H. cbn in H. rewrite andb_false_r in H. discriminate H. Qed.
(** *** Reading after supcell and pcell *)
Lemma supcell_read dump load cbrt cell infile a b c m f fs : positions cell <> [] -> length (positions cell) = length (numbers cell) ->
  Forall supported (numbers cell) -> some_atom (numbers cell) -> (0 < a)%Z -> (0 < b)%Z -> (0 < c)%Z -> (a * b * c < 100000)%Z -> mode_format m f ->
  (forall d, load (dump d) = Ok d) ->
  exists g name fs' out g', cmd_supcell dump cell infile (V3 a b c) (Some m) fs = Ok (fs', out) /\
    lattice g = V3 (vscale (Zc a) (vx (lattice cell))) (vscale (Zc b) (vy (lattice cell))) (vscale (Zc c) (vz (lattice cell))) /\
    (forall z v, crystal_atom (lattice g) (positions g) (numbers g) z v <-> crystal_atom (lattice cell) (positions cell) (numbers cell) z v) /\
    result_name infile "_SUPC" m name /\ from_file load cbrt (Some name) None fs' = Ok g' /\ kept_by f g g'.
Proof.
  intros NE L S N A B C V M LD. destruct (@supcell_spec dump cell infile a b c (Some m) fs NE L S A B C V (ex_intro _ f M)) as (g & [fs' out] & E & D & EL & ML & EN & EC).
  assert (SG : Forall supported (numbers g)) by exact (@same_numbers_supported cell L S g (eq_sym ML) EC).
  assert (NG : some_atom (numbers g)) by (eapply crystal_some_atom; [exact L| |exact N]; intros z v H; apply EC in H; eauto).
  destruct (@delivered_read dump load cbrt _ infile "_SUPC" m f g fs _ tag_supc M SG ML NG (fun d _ => LD d) D) as (name & g' & RN & F & K).
  exists g, name, fs', out, g'. repeat (split; [assumption|]). exact K.
Qed.
Lemma supcell_printed dump cbrt cell infile a b c fs : positions cell <> [] -> length (positions cell) = length (numbers cell) ->
  Forall supported (numbers cell) -> (0 < a)%Z -> (0 < b)%Z -> (0 < c)%Z -> (a * b * c < 100000)%Z -> one_line infile ->
  exists out, cmd_supcell dump cell infile (V3 a b c) None fs = Ok (fs, out) /\
    (some_atom (numbers cell) -> vasp_get_cell cbrt out = Raise ValueError) /\
    (~ some_atom (numbers cell) -> vasp_get_cell cbrt out = Raise KeyError).
Proof.
  intros NE L S A B C V O. destruct (@supcell_spec dump cell infile a b c None fs NE L S A B C V I) as (g & r & E & (t & R & ->) & EL & ML & EN & EC).
  assert (SG : Forall supported (numbers g)) by exact (@same_numbers_supported cell L S g (eq_sym ML) EC).
  exists (notice infile +++ t +++ eol). split; [exact E|]. unfold vasp_get_cell. rewrite (announced_read_eol cbrt SG ML O R).
  split; intros N.
  - assert (NG : some_atom (numbers g)) by (eapply crystal_some_atom; [exact L| |exact N]; intros z v H; apply EC in H; eauto).
    replace (existsb _ _) with true; [reflexivity|]. symmetry. apply existsb_exists. destruct NG as (z & I & NZ). exists z. split; [exact I|].
    apply negb_true_iff, Z.eqb_neq, NZ.
  - replace (existsb _ _) with false; [reflexivity|]. symmetry. apply Bool.not_true_iff_false. rewrite existsb_exists. intros (z & I & NZ). apply N.
    eapply crystal_some_atom; [exact ML| |exists z; split; [exact I|apply Z.eqb_neq, negb_true_iff, NZ]]. intros z' v H; apply EC in H; eauto.
Qed.
Lemma vsub_back v t : v = vadd (vsub v t) t.
Proof. qm. Qed.
Lemma pcell_printed std dump cbrt cell infile fs : Forall supported (numbers cell) -> length (positions cell) = length (numbers cell) -> some_atom (numbers cell) ->
  standardized (cell_of cell) (std (cell_of cell)) ->
  exists g out g', cmd_pcell std dump cell infile None fs = Ok (fs, out) /\ same_up_to_motion (cell_of cell) (cell_of g) /\ smallest (cell_of g) /\
    vasp_get_cell cbrt out = Ok g' /\ kept_by Fvasp g g'.
Proof.
  intros S L N ST. destruct (@refined_spec std cell ST) as (g & E & MO & SM & LG).
  pose proof (motion_numbers LG MO S) as SG.
  assert (NG : some_atom (numbers g)).
  { destruct MO as (q & tt & OQ & M). eapply crystal_some_atom; [exact L| |exact N]. intros z v H. exists (vec_mat (vsub v tt) (flip q)).
    apply M. replace (vadd (vec_mat (vec_mat (vsub v tt) (flip q)) q) tt) with v; [exact H|]. rewrite vec_mat_mul, (proj2 OQ), vec_mat_one. apply vsub_back. }
  destruct (@deliver_total dump "" infile "_PRIMC" None g fs tag_primc I SG) as (r & R).
  assert (D : delivered dump "" infile "_PRIMC" None g fs r) by (apply deliver_spec; [exact tag_primc|exact I|exact R]).
  destruct D as (t & RT & ->). destruct (@printed_read cbrt g t dump SG LG NG RT) as (g' & F & K).
  exists g, (t +++ eol), g'. split; [apply pcell_spec; [exact I|]; exists g; split; [exact E|]; exists t; split; [exact RT|reflexivity]|].
  auto.
Qed.
