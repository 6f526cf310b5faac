(** POSCAR and YAML round trips, mode line, format names. *)
From Coq Require Import String Ascii Sorted DecimalString.
From Verif Require Import Base LBase BaseQ LQ SElement MElement LElement MSort LSort MGeneralCell SGeneralCell LGeneralCell
  MText LText MIO SIO LIO LIO2 LIO3.
Set Implicit Arguments.
Unset Strict Implicit.
Open Scope string_scope.
Open Scope list_scope.
Open Scope Z_scope.
Notation length := List.length.

(** *** C51 *)
Lemma VaspOutput_new_ok g zoom : Forall supported (numbers g) -> length (positions g) = length (numbers g) ->
  exists names zs syms, VaspOutput_new g zoom = Ok (mkVO g names zoom) /\ written g names zs syms.
Proof.
  intros S L. destruct (written_exists S L) as (names & zs & syms & E & W). exists names, zs, syms.
  split; [|exact W]. unfold VaspOutput_new. rewrite E. reflexivity.
Qed.
Lemma VaspOutput_names g names zoom : VaspOutput_new g zoom = Ok (mkVO g names zoom) -> mapM to_name (numbers g) = Ok names.
Proof. unfold VaspOutput_new. destruct (mapM to_name (numbers g)); cbn; congruence. Qed.

Lemma comment_formula g names : Forall supported (numbers g) -> mapM to_name (numbers g) = Ok names ->
  formula (numbers g) (comment_of (ordered_atoms names)).
Proof.
  intros S E. destruct (comment_spec g S) as (s & C & F). unfold comment in C. rewrite E in C. cbn [bind] in C. injection C as <-. exact F.
Qed.

Lemma blocks_show zs syms pos nums :
  Forall2 (fun zsym block => Forall2 (fun p line => exists row, shows_row p row /\ line = String.append row (String " " (snd zsym)))
    (of_number (fst zsym) pos nums) block) (combine zs syms) (block_list zs syms pos nums).
Proof.
  unfold block_list. induction (combine zs syms) as [|zs' l IH]; cbn [map]; constructor; [|exact IH].
  induction (of_number (fst zs') pos nums) as [|p ps IHp]; cbn [map]; constructor; [|exact IHp].
  exists (format_row p). split; [apply format_row_shows|reflexivity].
Qed.

Lemma C51_lemma g zoom direct : Forall supported (numbers g) -> length (positions g) = length (numbers g) ->
  exists v, VaspOutput_new g zoom = Ok v /\
    poscar (lattice g) (positions g) (numbers g) (str_int zoom) (mode_text direct) (get_string v direct).
Proof.
  intros S L. destruct (VaspOutput_new_ok zoom S L) as (names & zs & syms & E & W). exists (mkVO g names zoom). split; [exact E|].
  exists (comment_of (ordered_atoms names)), (format_row (vx (lattice g))), (format_row (vy (lattice g))), (format_row (vz (lattice g))), zs, syms,
    (block_list zs syms (positions g) (numbers g)).
  split; [exact (get_string_eq zoom direct W)|]. split; [eapply comment_formula; [exact S|eapply VaspOutput_names; eauto]|].
  do 3 (split; [apply format_row_shows|]). split; [apply W|]. split; [apply W|]. split; [apply W|]. apply blocks_show.
Qed.

(** number of lines of any POSCAR text *)
Lemma newlines_app a b : newlines (String.append a b) = (newlines a + newlines b)%nat.
Proof. induction a as [|c a IH]; cbn; [reflexivity|]. rewrite IH. lia. Qed.
Lemma newlines_none s : allc no_nl s = true -> newlines s = 0%nat.
Proof.
  induction s as [|c s IH]; [reflexivity|]. cbn. rewrite andb_true_iff. intros [H K]. unfold no_nl in H. apply negb_true_iff in H.
  rewrite (IH K). unfold newline in H. rewrite H. reflexivity.
Qed.
Lemma newlines_text ls : Forall (fun l => allc no_nl l = true) ls -> newlines (text_of_lines ls) = length ls.
Proof.
  induction 1 as [|l ls H F IH]; [reflexivity|]. change (text_of_lines (l :: ls)) with (String.append l (String "010" (text_of_lines ls))).
  rewrite newlines_app, (newlines_none H). cbn. rewrite IH. reflexivity.
Qed.

Definition atoms_of zs (pos : list (vec Qc)) (nums : list Z) : list (vec Qc * Z) :=
  flat_map (fun z => filter (fun a => snd a =? z) (combine pos nums)) zs.
Lemma atoms_pos zs pos nums : map fst (atoms_of zs pos nums) = grouped_pos zs pos nums.
Proof. unfold atoms_of, grouped_pos. rewrite map_flat_map. reflexivity. Qed.
Lemma snd_filter z : forall (pos : list (vec Qc)) nums, length pos = length nums ->
  map snd (filter (fun a => snd a =? z) (combine pos nums)) = repeat z (count_occ Z.eq_dec nums z).
Proof.
  induction pos as [|p pos IH]; intros [|n nums] L; try discriminate; [reflexivity|]. injection L as L. cbn.
  destruct (Z.eqb_spec n z), (Z.eq_dec n z); try contradiction; cbn; rewrite (IH _ L); congruence.
Qed.
Lemma atoms_nums zs pos nums : length pos = length nums ->
  map snd (atoms_of zs pos nums) = flat_map (fun z => repeat z (count_occ Z.eq_dec nums z)) zs.
Proof. intros L. unfold atoms_of. rewrite map_flat_map. apply flat_map_ext_in. intros z _. now apply snd_filter. Qed.

Lemma Sorted_app_le l l' : StronglySorted Z.le l -> StronglySorted Z.le l' -> (forall a b, In a l -> In b l' -> a <= b) ->
  StronglySorted Z.le (l ++ l').
Proof.
  induction 1 as [|a l S IH F]; intros S' H; [exact S'|]. cbn. constructor; [apply IH; auto; intros; apply H; [now right|assumption]|].
  rewrite Forall_forall in *. intros b B. apply in_app_iff in B. destruct B as [B|B]; [auto|]. apply H; [now left|exact B].
Qed.
Lemma Sorted_repeat z n : StronglySorted Z.le (repeat z n).
Proof. induction n; cbn; constructor; [assumption|]. apply Forall_forall. intros b B. apply repeat_spec in B. lia. Qed.
Lemma filter_empty A (f : A -> bool) l : (forall a, In a l -> f a = false) -> filter f l = [].
Proof. induction l as [|a l IH]; intros H; [reflexivity|]. cbn. rewrite H by now left. apply IH. intros. apply H. now right. Qed.
Lemma filter_flat_map A B (f : B -> bool) (h : A -> list B) l : filter f (flat_map h l) = flat_map (fun a => filter f (h a)) l.
Proof. induction l as [|a l IH]; [reflexivity|]. cbn. rewrite filter_app, IH. reflexivity. Qed.
Lemma filter_filter_same A (f : A -> bool) l : filter f (filter f l) = filter f l.
Proof. apply filter_id. intros a I. now apply filter_In in I. Qed.

Lemma pick_group z (orig : list (vec Qc * Z)) zs : StronglySorted Z.lt zs ->
  flat_map (fun y => filter (fun a => snd a =? z) (filter (fun a => snd a =? y) orig)) zs =
  if existsb (Z.eqb z) zs then filter (fun a => snd a =? z) orig else [].
Proof.
  assert (D : forall y, y <> z -> filter (fun a : vec Qc * Z => snd a =? z) (filter (fun a => snd a =? y) orig) = []).
  { intros y N. apply filter_empty. intros a I. apply filter_In in I. destruct I as [_ I]. apply Z.eqb_eq in I. apply Z.eqb_neq. congruence. }
  induction 1 as [|y zs S IH F]; [reflexivity|]. cbn. rewrite IH. destruct (Z.eqb_spec z y) as [->|N]; cbn.
  - rewrite filter_filter_same. destruct (existsb (Z.eqb y) zs) eqn:E; [|apply app_nil_r].
    apply existsb_exists in E. destruct E as (w & I & E). apply Z.eqb_eq in E. subst w. rewrite Forall_forall in F. specialize (F _ I). lia.
  - rewrite D by congruence. reflexivity.
Qed.

Lemma atoms_grouped g names zs syms : written g names zs syms ->
  grouped (combine (positions g) (numbers g)) (atoms_of zs (positions g) (numbers g)).
Proof.
  intros W. split.
  - rewrite (atoms_nums zs (w_len W)). pose proof (w_sorted W) as S. clear -S. induction S as [|z zs S IH F]; cbn; [constructor|].
    apply Sorted_app_le; [apply Sorted_repeat|exact IH|]. intros a b A B. apply repeat_spec in A. subst a.
    apply in_flat_map in B. destruct B as (y & I & B). apply repeat_spec in B. subst b. rewrite Forall_forall in F. specialize (F _ I). lia.
  - intros z. unfold atoms_of. rewrite filter_flat_map, (pick_group _ _ (w_sorted W)).
    destruct (existsb (Z.eqb z) zs) eqn:E.
    + apply existsb_exists in E. destruct E as (w & I & E). apply Z.eqb_eq in E. subst w. apply (w_cover W) in I.
      destruct (Z.eqb_spec z 0); [tauto|reflexivity].
    + destruct (Z.eqb_spec z 0); [reflexivity|]. symmetry. apply filter_empty. intros [p m] I. apply Z.eqb_neq. intros C. cbn in C. subst m.
      apply in_combine_r in I. assert (In z zs) by (apply (w_cover W); auto).
      assert (existsb (Z.eqb z) zs = true) by (apply existsb_exists; exists z; split; [assumption|apply Z.eqb_refl]). congruence.
Qed.

Lemma grouped_length (orig out : list (vec Qc * Z)) : grouped orig out -> length out = length (filter (fun a => negb (snd a =? 0)) orig).
Proof.
  intros [_ H].
  assert (K : forall l l' : list (vec Qc * Z), (forall z, length (filter (fun a => snd a =? z) l) = length (filter (fun a => snd a =? z) l')) -> length l = length l').
  { induction l as [|[p m] l IH]; intros l' E.
    - destruct l' as [|[p' m'] l']; [reflexivity|]. specialize (E m'). cbn in E. rewrite Z.eqb_refl in E. discriminate.
    - assert (M : exists a b q, l' = a ++ q :: b /\ snd q = m).
      { specialize (E m). cbn in E. rewrite Z.eqb_refl in E. destruct (filter (fun a => snd a =? m) l') as [|q r] eqn:F; [discriminate|].
        pose proof (proj1 (filter_In (fun a : vec Qc * Z => snd a =? m) q l')) as X. rewrite F in X. destruct (X (or_introl eq_refl)) as [I Q].
        apply Z.eqb_eq in Q.
        apply in_split in I. destruct I as (a & b & ->). exists a, b, q. split; [reflexivity|exact Q]. }
      destruct M as (a & b & q & -> & Q). rewrite app_length. cbn [length]. rewrite (IH (a ++ b)); [rewrite app_length; cbn; lia|].
      intros z. specialize (E z). cbn in E. rewrite !filter_app in *. cbn [filter] in E. rewrite Q in E.
      destruct (m =? z); cbn in E; rewrite !app_length in *; cbn in E; lia. }
  apply K. intros z. rewrite H. destruct (Z.eqb_spec z 0) as [->|N].
  - rewrite filter_comm, (filter_empty (l := filter _ _)); [reflexivity|]. intros a I. apply filter_In in I. destruct I as [_ I]. now rewrite I.
  - f_equal. symmetry. rewrite filter_comm. apply filter_id. intros a I. apply filter_In in I. destruct I as [_ I]. apply Z.eqb_eq in I. rewrite I.
    apply negb_true_iff. now apply Z.eqb_neq.
Qed.

Lemma concat_block_length zs syms pos nums : length zs = length syms -> length (concat (block_list zs syms pos nums)) = length (grouped_pos zs pos nums).
Proof.
  unfold block_list, grouped_pos. revert syms. induction zs as [|z zs IH]; intros [|s syms] L; try discriminate; [reflexivity|].
  cbn [combine map concat flat_map fst snd]. rewrite !app_length, map_length, IH; [reflexivity|]. now injection L.
Qed.
Lemma C51_lines g zoom direct v : Forall supported (numbers g) -> length (positions g) = length (numbers g) ->
  VaspOutput_new g zoom = Ok v -> newlines (get_string v direct) = (8 + length (filter (fun z => negb (z =? 0)%Z) (numbers g)))%nat.
Proof.
  intros S L E. destruct (VaspOutput_new_ok zoom S L) as (names & zs & syms & E' & W). rewrite E' in E. injection E as <-.
  rewrite (get_string_eq zoom direct W), (newlines_text (lines_no_nl zoom direct W)). unfold all_lines. rewrite app_length.
  rewrite concat_block_length by (eapply Forall2_len; apply (w_syms W)). rewrite <- atoms_pos, map_length, (grouped_length (atoms_grouped W)).
  cbn [length]. f_equal. rewrite <- (combine_snd L) at 2. generalize (combine (positions g) (numbers g)) as l.
  induction l as [|a l IH]; [reflexivity|]. cbn. destruct (snd a =? 0); cbn; congruence.
Qed.

(** *** C52 *)
Definition tol : Qc := Q2Qc (505 # 10000000).
Lemma around4_within x y : within (Q2Qc (1 # 2000000)) x y -> within tol x (around 4 y).
Proof.
  intros [H1 H2]. destruct (around_near 4 y) as [K1 K2]. unfold within, tol in *. change (pow10 4) with 10000%positive in *.
  generalize dependent (around 4 y). intros r K1 K2.
  split; qcpush; change (inject_Z 2) with 2%Q in *; change (inject_Z 10000) with 10000%Q in *; change (this 1%Qc) with 1%Q in *; lra.
Qed.
Lemma read_within x : within tol x (around 4 (fval x)).
Proof. apply around4_within, fval_within. Qed.
Lemma vread_within v : vwithin tol v (vmap (fun x => around 4 (fval x)) v).
Proof. destruct v. repeat split; apply read_within. Qed.

Lemma zoom_pos cbrt m k : 0 <= k -> zoom_factor cbrt m (Zc k) = Zc k.
Proof.
  intros K. unfold zoom_factor. assert (E : Qcltb (Zc k) 0 = false).
  { destruct (Qcltb (Zc k) 0) eqn:E; [|reflexivity]. apply Qcltb_lt in E. rewrite <- Zc_0 in E. pose proof (proj1 (Zc_lt k 0) E). lia. }
  now rewrite E.
Qed.

Lemma C52_lemma cbrt g zoom direct v : Forall supported (numbers g) -> length (positions g) = length (numbers g) -> 0 <= zoom ->
  (exists z, In z (numbers g) /\ z <> 0) -> VaspOutput_new g zoom = Ok v ->
  exists lat atoms pos, from_string cbrt (get_string v direct) = Ok (vmap (vmap (fun x => x * Zc zoom)%Qc) lat, pos, map snd atoms) /\
    mwithin tol (lattice g) lat /\ grouped (combine (positions g) (numbers g)) atoms /\ Forall2 (vwithin tol) (map fst atoms) pos.
Proof.
  intros S L Z (z & I & N) E. destruct (VaspOutput_new_ok zoom S L) as (names & zs & syms & E' & W). rewrite E' in E. injection E as <-.
  assert (NZ : zs <> []). { intros ->. apply (proj2 (w_cover W z)). auto. }
  exists (vmap (vmap (fun x => around 4 (fval x))) (lattice g)), (atoms_of zs (positions g) (numbers g)),
    (map (vmap (fun x => around 4 (fval x))) (grouped_pos zs (positions g) (numbers g))).
  split; [rewrite (read_written cbrt zoom direct W NZ); cbv zeta; rewrite (zoom_pos _ _ Z), (atoms_nums zs (w_len W)); reflexivity|].
  split; [destruct (lattice g); repeat split; apply read_within|]. split; [apply (atoms_grouped W)|].
  rewrite atoms_pos. induction (grouped_pos zs (positions g) (numbers g)) as [|p ps IH]; cbn; constructor; [apply vread_within|exact IH].
Qed.

(** *** C53 *)
Lemma parse_float_more b sg ip fp rest : allc is_space b = true -> sg = ""%string \/ sg = "-"%string -> allc is_digit_c ip = true -> ip <> ""%string -> allc is_digit_c fp = true ->
  blank rest = false ->
  parse_float (String.append b (String.append sg (String.append ip (String "." (String.append fp (String " " rest)))))) = Raise ValueError.
Proof.
  intros B S H N F R. assert (NN := digits_of_ne H N).
  assert (K0 : forall r, lstrip (String.append b r) = lstrip r).
  { clear -B. induction b as [|c b IH]; intros r; [reflexivity|]. cbn in *. apply andb_true_iff in B. destruct B as [B1 B2]. rewrite B1. now apply IH. }
  set (r := String.append fp (String " " rest)).
  assert (K : read_sign (lstrip (String.append sg (String.append ip (String "." r)))) = ((if String.eqb sg "-" then -1 else 1), String.append ip (String "." r))).
  { destruct S as [-> | ->]; [exact (@read_sign_digit ip (String "." r) H N)|reflexivity]. }
  unfold parse_float. rewrite K0, K. rewrite span_digits_app by (auto; reflexivity). change (Ascii.eqb "." ".") with true. cbv iota zeta beta.
  unfold r. rewrite span_digits_app by (auto; reflexivity).
  destruct (digits_of ip ++ digits_of fp)%list as [|d ds] eqn:E; [apply app_eq_nil in E; destruct E; congruence|].
  cbn [read_exp]. change (Ascii.eqb " " "e" || Ascii.eqb " " "E") with false. cbv iota.
  cbn [blank]. rewrite R, andb_false_r. reflexivity.
Qed.
Lemma parse_float_row v : parse_float (format_row v) = Raise ValueError.
Proof.
  rewrite format_row_eq. destruct (format_eq (vx v)) as [n ->]. unfold fword at 1. rewrite !app_assoc_s. cbn [String.append].
  destruct (fixed_spec (frac_part (vx v))) as (F & _ & _).
  apply parse_float_more; auto using spaces_blank, fsign_cases, decN_digits, decN_nonempty.
  destruct (format_eq (vy v)) as [k ->]. rewrite !app_assoc_s, blank_app, blank_app.
  rewrite (word_not_blank (fword_word (vy v))). cbn. apply andb_false_r.
Qed.

Lemma C53_lemma cbrt g direct v : Forall supported (numbers g) -> length (positions g) = length (numbers g) ->
  (forall z, In z (numbers g) -> z = 0) -> VaspOutput_new g 1 = Ok v ->
  from_string cbrt (get_string v direct) = Raise ValueError.
Proof.
  intros S L Z E. destruct (VaspOutput_new_ok 1 S L) as (names & zs & syms & E' & W). rewrite E' in E. injection E as <-.
  assert (zs = []). { destruct zs as [|z zs]; [reflexivity|]. destruct (proj1 (w_cover W z) (or_introl eq_refl)) as [I N]. specialize (Z _ I). congruence. }
  subst zs. pose proof (w_syms W) as F. inversion F; subst syms. unfold from_string.
  rewrite (get_string_eq 1 direct W), (split_text (lines_no_nl 1 direct W)). unfold all_lines. rewrite (w_ord W).
  cbn [combine map block_list concat List.app]. cbn [filter].
  change (counts_line g []) with ""%string. change (words_line []) with ""%string. change (comment_of []) with ""%string.
  change (blank "") with true. cbn [negb].
  assert (R : forall v, blank (format_row v) = false) by (intros u; rewrite <- (app_nil_s (format_row u)); apply row_not_blank).
  rewrite !R. change (blank (str_int 1)) with false. cbn [negb get_nth nth_error bind]. rewrite parse_float_row. reflexivity.
Qed.

(** *** C54 *)
Lemma is_space_white c : is_space c = true <-> white c.
Proof.
  unfold white. destruct c as [b0 b1 b2 b3 b4 b5 b6 b7].
  destruct b0, b1, b2, b3, b4, b5, b6, b7; vm_compute; split; intros H; try reflexivity; try discriminate;
  repeat (destruct H as [H|H]; [discriminate H|]); try contradiction; auto 20.
Qed.
Lemma ink_iff s : has_ink s <-> blank s = false.
Proof.
  split.
  - intros (a & c & b & -> & N). rewrite blank_app. cbn. assert (is_space c = false) by (destruct (is_space c) eqn:E; [exfalso; apply N, is_space_white, E|reflexivity]).
    rewrite H. cbn. apply andb_false_r.
  - induction s as [|c s IH]; [discriminate|]. cbn. destruct (is_space c) eqn:E; cbn.
    + intros H. destruct (IH H) as (a & d & b & -> & N). exists (String c a), d, b. split; [reflexivity|exact N].
    + intros _. exists ""%string, c, s. split; [reflexivity|]. intros W. apply is_space_white in W. congruence.
Qed.
Lemma one_line_allc s : one_line s -> allc no_nl s = true.
Proof.
  induction s as [|c s IH]; intros H; [reflexivity|]. cbn. rewrite IH.
  - rewrite andb_true_r. unfold no_nl. destruct (Ascii.eqb_spec c newline) as [->|N]; [|reflexivity]. exfalso. exact (H ""%string s eq_refl).
  - intros a b ->. exact (H (String c a) b eq_refl).
Qed.
Lemma split_more ls rest : Forall one_line ls -> split_lines (String.append (text_of_lines ls) rest) = ls ++ split_lines rest.
Proof.
  induction 1 as [|l ls H F IH]; [reflexivity|]. change (text_of_lines (l :: ls)) with (String.append l (String "010" (text_of_lines ls))).
  rewrite app_assoc_s. cbn [String.append]. rewrite (split_lines_cons _ (one_line_allc H)), IH. reflexivity.
Qed.
Lemma inked_filter n ls : inked n ls -> length (filter keep ls) = n.
Proof.
  unfold keep. induction 1 as [|n l ls H F IH|n l ls H F IH]; cbn; [reflexivity| |].
  - rewrite (proj1 (ink_iff l) H). cbn. now rewrite IH.
  - destruct (blank l) eqn:E; [exact IH|]. exfalso. apply H, ink_iff, E.
Qed.
Lemma C54_lemma cbrt pre m m' rest : Forall one_line pre -> inked 7 pre -> one_line m -> has_ink m -> one_line m' -> has_ink m' ->
  from_string cbrt (String.append (text_of_lines (pre ++ [m])) rest) = from_string cbrt (String.append (text_of_lines (pre ++ [m'])) rest).
Proof.
  intros O I M1 M2 M1' M2'. unfold from_string. rewrite !split_more by (apply Forall_app; split; [exact O|]; constructor; [assumption|constructor]).
  change (fun l => negb (blank l)) with keep. rewrite !filter_app.
  apply inked_filter in I. apply ink_iff in M2, M2'.
  assert (K : filter keep [m] = [m]) by (cbn; unfold keep; now rewrite M2).
  assert (K' : filter keep [m'] = [m']) by (cbn; unfold keep; now rewrite M2').
  rewrite K, K'. destruct (filter keep pre) as [|a [|b [|c [|d [|e [|f [|g [|h l]]]]]]]]; try discriminate I. reflexivity.
Qed.
