(** POSCAR text: the whole text and reading it back. *)
From Coq Require Import String Ascii Sorted DecimalString.
From Verif Require Import Base LBase BaseQ LQ SElement MElement LElement MSort LSort MGeneralCell SGeneralCell LGeneralCell
  MText LText MIO SIO LIO LIO2.
Set Implicit Arguments.
Unset Strict Implicit.
Open Scope string_scope.
Open Scope list_scope.
Open Scope Z_scope.
Notation length := List.length.

Definition atom_line (s : string) (p : vec Qc) : string := String.append (format_row p) (String " " s).
Definition triples (nums : list Z) (pos : list (vec Qc)) (names : list string) := combine (combine nums pos) names.

Lemma block_lines z s : is_element z s -> forall nums pos names, Forall2 is_element nums names -> length pos = length nums ->
  map (fun t : Z * vec Qc * string => atom_line (snd t) (snd (fst t))) (filter (fun t => fst (fst t) =? z) (triples nums pos names)) =
  map (atom_line s) (of_number z pos nums).
Proof.
  intros Hz nums. unfold triples, of_number. induction nums as [|n nums IH]; intros pos names F L; destruct pos as [|p pos]; try discriminate.
  - reflexivity.
  - inversion F as [|? nm ? names' Hn F']; subst. cbn. destruct (Z.eqb_spec n z) as [->|N]; cbn.
    + rewrite (element_fun Hn Hz). f_equal. apply IH; auto.
    + apply IH; auto.
Qed.

Lemma sorted_le_filter A (key : A -> Z) f l :
  StronglySorted (fun a b => key a <= key b) (filter f (isort (fun a b => key a <=? key b) l)).
Proof.
  apply StronglySorted_filter.
  pose proof (@isort_sorted A (fun a b => key a <=? key b)) as K.
  assert (K1 : StronglySorted (fun a b => (key a <=? key b) = true) (isort (fun a b => key a <=? key b) l)).
  { apply K; intros x y; [rewrite !Z.leb_le; lia|]. intros z. rewrite !Z.leb_le. lia. }
  clear K. induction K1 as [|a l' S IH F]; constructor; [exact IH|].
  rewrite Forall_forall in *. intros b B. apply Z.leb_le. apply F. exact B.
Qed.

Lemma filter_comm A (f g : A -> bool) l : filter f (filter g l) = filter g (filter f l).
Proof. induction l as [|a l IH]; [reflexivity|]. cbn. destruct (f a) eqn:F, (g a) eqn:G; cbn; rewrite ?F, ?G, IH; reflexivity. Qed.
Lemma filter_id A (f : A -> bool) l : (forall a, In a l -> f a = true) -> filter f l = l.
Proof. induction l as [|a l IH]; intros H; [reflexivity|]. cbn. rewrite H by now left. f_equal. apply IH. intros. apply H. now right. Qed.

Lemma flat_map_ext_in A B (f g : A -> list B) l : (forall a, In a l -> f a = g a) -> flat_map f l = flat_map g l.
Proof. induction l as [|a l IH]; intros H; [reflexivity|]. cbn. rewrite H by now left. f_equal. apply IH. intros. apply H. now right. Qed.
Lemma map_flat_map A B C (h : B -> C) (f : A -> list B) l : map h (flat_map f l) = flat_map (fun a => map h (f a)) l.
Proof. induction l as [|a l IH]; [reflexivity|]. cbn. now rewrite map_app, IH. Qed.

Lemma grouped_lines nums pos names zs syms : Forall2 is_element nums names -> length pos = length nums ->
  StronglySorted Z.lt zs -> (forall z, In z zs <-> In z nums /\ z <> 0) -> Forall2 is_element zs syms ->
  flat_map (fun t : Z * vec Qc * string => let '(i, p, site) := t in
      if negb (i =? 0) then [String.append (format_row p) (String " " site)] else [])
    (isort (fun a b => Z.leb (fst (fst a)) (fst (fst b))) (triples nums pos names)) =
  flat_map (fun zs => map (atom_line (snd zs)) (of_number (fst zs) pos nums)) (combine zs syms).
Proof.
  intros F L S C E. set (key := fun t : Z * vec Qc * string => fst (fst t)).
  set (T := triples nums pos names).
  set (nz := fun t : Z * vec Qc * string => negb (key t =? 0)).
  transitivity (map (fun t : Z * vec Qc * string => atom_line (snd t) (snd (fst t))) (filter nz (isort (fun a b => key a <=? key b) T))).
  { change (isort (fun a b : Z * vec Qc * string => fst (fst a) <=? fst (fst b)) T) with (isort (fun a b => key a <=? key b) T).
    generalize (isort (fun a b => key a <=? key b) T) as l. induction l as [|[[i p] s] l IH]; [reflexivity|]. cbn [flat_map filter].
    unfold nz at 1, key at 1. cbn [fst snd]. destruct (i =? 0); cbn [negb List.app map fst snd]; rewrite IH; reflexivity. }
  rewrite (@sorted_groups _ key zs (filter nz (isort (fun a b => key a <=? key b) T))) at 1.
  - rewrite map_flat_map.
    rewrite (@flat_map_ext_in _ _ _ (fun z => map (fun t : Z * vec Qc * string => atom_line (snd t) (snd (fst t))) (filter (fun t => key t =? z) T))).
    + assert (Q : Forall (fun zs => is_element (fst zs) (snd zs)) (combine zs syms)).
      { clear -E. induction E; cbn; constructor; auto. }
      assert (Z1 : zs = map fst (combine zs syms)) by (clear -E; induction E; cbn; congruence).
      rewrite Z1 at 1. clear -Q F L. induction Q as [|[z s] l Hz Q IH]; [reflexivity|]. cbn [map flat_map fst snd].
      rewrite IH. f_equal. apply (block_lines Hz F L).
    + intros z Z. f_equal. rewrite filter_comm, isort_filter. apply filter_id. intros a A. apply filter_In in A.
      destruct A as [_ A]. unfold nz. apply Z.eqb_eq in A. rewrite A. apply C in Z. destruct (Z.eqb_spec z 0); [tauto|reflexivity].
  - apply sorted_le_filter.
  - exact S.
  - intros a A. apply filter_In in A. destruct A as [A N]. unfold nz in N. apply negb_true_iff, Z.eqb_neq in N.
    apply C. split; [|exact N]. eapply Permutation_in in A; [|apply isort_perm]. unfold T, triples in A.
    destruct a as [[i p] s]. apply in_combine_l in A. apply in_combine_l in A. exact A.
Qed.

(** *** the lines *)
Definition block_list zs syms pos nums : list (list string) :=
  map (fun zs => map (atom_line (snd zs)) (of_number (fst zs) pos nums)) (combine zs syms).
Lemma combine_fst A B (a : list A) (b : list B) : length a = length b -> map fst (combine a b) = a.
Proof. revert b. induction a as [|x a IH]; intros [|y b] L; try discriminate; cbn; [reflexivity|]. rewrite IH; [reflexivity|]. now injection L. Qed.
Lemma combine_snd A B (a : list A) (b : list B) : length a = length b -> map snd (combine a b) = b.
Proof. revert b. induction a as [|x a IH]; intros [|y b] L; try discriminate; cbn; [reflexivity|]. rewrite IH; [reflexivity|]. now injection L. Qed.

Record written (g : gcell) (names : list string) (zs : list Z) (syms : list string) : Prop := {
  w_names : Forall2 is_element (numbers g) names;
  w_len : length (positions g) = length (numbers g);
  w_sorted : StronglySorted Z.lt zs;
  w_cover : forall z, In z zs <-> In z (numbers g) /\ z <> 0;
  w_syms : Forall2 is_element zs syms;
  w_ord : ordered_atoms names = combine syms (map (fun z => count_occ Z.eq_dec (numbers g) z) zs) }.

Lemma written_exists g : Forall supported (numbers g) -> length (positions g) = length (numbers g) ->
  exists names zs syms, mapM to_name (numbers g) = Ok names /\ written g names zs syms.
Proof.
  intros S L. destruct (mapM_to_name S) as [names [E F]]. destruct (ordered_spec F) as (zs & syms & H1 & H2 & H3 & H4).
  exists names, zs, syms. split; [exact E|]. constructor; auto.
Qed.

Definition counts_line (g : gcell) (zs : list Z) : string :=
  words_line (map (fun z => count_text (count_occ Z.eq_dec (numbers g) z)) zs).
Definition mode_text (direct : bool) : string := if direct then "direct" else "cartesian".

Lemma poscar_lines_eq g names zs syms zoom direct : written g names zs syms ->
  poscar_lines (mkVO g names zoom) direct =
  [comment_of (ordered_atoms names); str_int zoom; format_row (vx (lattice g)); format_row (vy (lattice g)); format_row (vz (lattice g));
   words_line syms; counts_line g zs; mode_text direct] ++ concat (block_list zs syms (positions g) (numbers g)).
Proof.
  intros [F L S C E O]. unfold poscar_lines. cbn [vo_names vo_cell vo_zoom]. unfold sorted_position. cbn [vo_names vo_cell].
  change (combine (combine (numbers g) (positions g)) names) with (triples (numbers g) (positions g) names).
  rewrite (grouped_lines F L S C E), O. unfold block_list. rewrite <- flat_map_concat_map.
  assert (LL : length syms = length (map (fun z => count_occ Z.eq_dec (numbers g) z) zs)) by (rewrite map_length; symmetry; eapply Forall2_len; eauto).
  rewrite (combine_fst LL).
  assert (Q : map (fun kv : string * nat => dec (snd kv)) (combine syms (map (fun z => count_occ Z.eq_dec (numbers g) z) zs)) =
          map (fun z => count_text (count_occ Z.eq_dec (numbers g) z)) zs).
  { rewrite <- (map_map snd dec), (combine_snd LL), map_map. reflexivity. }
  rewrite Q. reflexivity.
Qed.

Lemma text_lines_eq l ls : String.append (String.concat nl (l :: ls)) nl = text_of_lines (l :: ls).
Proof.
  revert l. induction ls as [|m ls IH]; intros l; [reflexivity|].
  change (String.concat nl (l :: m :: ls)) with (String.append l (String.append nl (String.concat nl (m :: ls)))).
  rewrite !app_assoc_s. cbn [text_of_lines fold_right]. f_equal. cbn [nl String.append]. f_equal. apply IH.
Qed.

Definition all_lines g names zs syms zoom direct : list string :=
  [comment_of (ordered_atoms names); str_int zoom; format_row (vx (lattice g)); format_row (vy (lattice g)); format_row (vz (lattice g));
   words_line syms; counts_line g zs; mode_text direct] ++ concat (block_list zs syms (positions g) (numbers g)).
Lemma get_string_eq g names zs syms zoom direct : written g names zs syms ->
  get_string (mkVO g names zoom) direct = text_of_lines (all_lines g names zs syms zoom direct).
Proof. intros W. unfold get_string. rewrite (poscar_lines_eq zoom direct W). apply text_lines_eq. Qed.

(** *** characters *)
Lemma str_int_no_nl z : allc no_nl (str_int z) = true.
Proof.
  assert (D : forall w, allc no_nl (decN w) = true).
  { intros w. apply word_no_nl. apply digits_word; [apply decN_digits|apply decN_nonempty]. }
  unfold str_int. destruct (z <? 0); [|apply D]. cbn [allc]. rewrite D. reflexivity.
Qed.
Lemma str_int_word z : is_word (str_int z).
Proof.
  assert (D : forall w, is_word (decN w)) by (intros w; apply digits_word; [apply decN_digits|apply decN_nonempty]).
  unfold str_int. destruct (z <? 0); [|apply D]. split; [|discriminate]. cbn [allc]. rewrite (proj1 (D (- z))). reflexivity.
Qed.
Lemma parse_str_int z : parse_float (str_int z) = Ok (Zc z).
Proof.
  unfold str_int. destruct (Z.ltb_spec z 0).
  - unfold parse_float. cbn [lstrip]. change (is_space "-") with false. cbv iota. unfold read_sign. change (Ascii.eqb "-" "-") with true. cbv iota.
    rewrite <- (app_nil_s (decN (- z))) at 1. rewrite span_digits_app by (apply decN_digits || exact I).
    pose proof (digits_of_ne (decN_digits (- z)) (@decN_nonempty (- z))) as N. pose proof (@decN_val (- z) ltac:(lia)) as V.
    rewrite app_nil_r. destruct (digits_of (decN (- z))) as [|d ds]; [congruence|]. cbn [read_exp blank]. rewrite V.
    change (0 - Z.of_nat (length (@nil Z))) with 0. unfold scale10. change (0 <=? 0) with true. cbv iota.
    change (pow10 (Z.to_nat 0)) with 1%positive. f_equal. f_equal. lia.
  - rewrite parse_float_int by (apply decN_digits || apply decN_nonempty). rewrite decN_val by assumption. reflexivity.
Qed.

Lemma words_of_syms zs syms : Forall2 is_element zs syms -> Forall is_word syms.
Proof. induction 1 as [|z s zs syms H F IH]; constructor; [eapply element_word; eauto|exact IH]. Qed.
Lemma comment_no_nl l : Forall (fun kv : string * nat => is_word (fst kv)) l -> allc no_nl (comment_of l) = true.
Proof.
  intros F. apply concat_no_nl; [reflexivity|]. apply Forall_forall. intros s I. apply in_map_iff in I. destruct I as (kv & <- & I).
  rewrite Forall_forall in F. rewrite allc_app, (word_no_nl (F _ I)), (word_no_nl (dec_word (snd kv))). reflexivity.
Qed.
Lemma ordered_words g names zs syms : written g names zs syms -> Forall (fun kv : string * nat => is_word (fst kv)) (ordered_atoms names).
Proof.
  intros W. rewrite (w_ord W). pose proof (words_of_syms (w_syms W)) as F. rewrite Forall_forall in *. intros [k v] I.
  apply in_combine_l in I. apply F. exact I.
Qed.

Lemma block_line_In g names zs syms l : written g names zs syms -> In l (concat (block_list zs syms (positions g) (numbers g))) ->
  exists s p, is_word s /\ l = atom_line s p.
Proof.
  intros W I. apply in_concat in I. destruct I as (b & B & I). unfold block_list in B. apply in_map_iff in B. destruct B as ([z s] & <- & B).
  apply in_map_iff in I. destruct I as (p & <- & _). exists s, p. split; [|reflexivity].
  apply in_combine_r in B. pose proof (words_of_syms (w_syms W)) as F. rewrite Forall_forall in F. apply F. exact B.
Qed.

Lemma lines_no_nl g names zs syms zoom direct : written g names zs syms ->
  Forall (fun l => allc no_nl l = true) (all_lines g names zs syms zoom direct).
Proof.
  intros W. unfold all_lines. cbn [List.app].
  constructor; [apply comment_no_nl; apply (ordered_words W)|]. constructor; [apply str_int_no_nl|].
  do 3 (constructor; [apply row_no_nl|]).
  constructor. { apply concat_no_nl; [reflexivity|]. eapply Forall_impl; [|exact (words_of_syms (w_syms W))]. intros; now apply word_no_nl. }
  constructor. { apply concat_no_nl; [reflexivity|]. apply Forall_forall. intros s I. apply in_map_iff in I. destruct I as (z & <- & _).
    apply word_no_nl. apply dec_word. }
  constructor; [destruct direct; reflexivity|].
  apply Forall_forall. intros l I. destruct (block_line_In W I) as (s & p & S & ->). unfold atom_line.
  rewrite allc_app, row_no_nl. cbn [allc]. rewrite (word_no_nl S). reflexivity.
Qed.

Lemma split_text ls : Forall (fun l => allc no_nl l = true) ls -> split_lines (text_of_lines ls) = ls ++ [""%string].
Proof. induction 1 as [|l ls H F IH]; [reflexivity|]. change (text_of_lines (l :: ls)) with (String.append l (String "010" (text_of_lines ls))). rewrite (split_lines_cons _ H). now rewrite IH. Qed.

Definition keep (l : string) : bool := negb (blank l).
Lemma lines_kept g names zs syms zoom direct : written g names zs syms -> zs <> [] ->
  filter keep (all_lines g names zs syms zoom direct ++ [""%string]) = all_lines g names zs syms zoom direct.
Proof.
  intros W N. rewrite filter_app. cbn [filter keep blank negb]. rewrite app_nil_r. apply filter_id.
  destruct zs as [|z zs]; [congruence|]. pose proof (w_syms W) as F. inversion F as [|? s ? syms' Hs F']; subst.
  pose proof (element_word Hs) as Ws. unfold keep.
  intros l I. unfold all_lines in I. cbn [List.app] in I. apply negb_true_iff.
  destruct I as [<-|[<-|[<-|[<-|[<-|[<-|[<-|[<-|I]]]]]]]].
  - rewrite (w_ord W). cbn [combine map comment_of]. apply concat_not_blank.
    cbn [fst snd]. destruct Ws as [W1 W2]. split.
    + rewrite allc_app, W1. exact (proj1 (dec_word _)).
    + destruct s; [congruence|discriminate].
  - apply word_not_blank, str_int_word.
  - rewrite <- (app_nil_s (format_row _)). apply row_not_blank.
  - rewrite <- (app_nil_s (format_row _)). apply row_not_blank.
  - rewrite <- (app_nil_s (format_row _)). apply row_not_blank.
  - apply concat_not_blank. exact Ws.
  - apply concat_not_blank. apply dec_word.
  - destruct direct; reflexivity.
  - destruct (block_line_In W I) as (t & p & _ & ->). apply row_not_blank.
Qed.

(** *** reading *)
Lemma read_lattice_row v : (do fs <- mapM parse_float (split (format_row v)); row3 fs) = Ok (vmap fval v).
Proof. rewrite split_row, parse_row. reflexivity. Qed.
Lemma read_atom_line s p : is_word s -> (do fs <- mapM parse_float (firstn 3 (split (atom_line s p))); row3 fs) = Ok (vmap fval p).
Proof. intros S. unfold atom_line. rewrite (split_row_sym p S). cbn [row_words firstn List.app]. change (mapM parse_float _) with (mapM parse_float (row_words p)). rewrite parse_row. reflexivity. Qed.
Lemma mapM_map A B C (f : B -> res C) (h : A -> B) (k : A -> C) l : (forall a, In a l -> f (h a) = Ok (k a)) -> mapM f (map h l) = Ok (map k l).
Proof.
  induction l as [|a l IH]; intros H; [reflexivity|]. cbn. rewrite H by now left. cbn. rewrite IH; [reflexivity|]. intros. apply H. now right.
Qed.
Lemma mapM_app_ok A B (f : A -> res B) l l' r r' : mapM f l = Ok r -> mapM f l' = Ok r' -> mapM f (l ++ l') = Ok (r ++ r').
Proof.
  revert r. induction l as [|a l IH]; intros r E E'; cbn in *; [injection E as <-; exact E'|].
  destruct (f a) as [b|]; [|discriminate]. cbn in *. destruct (mapM f l) as [bs|]; [|discriminate]. cbn in *. injection E as <-.
  rewrite (IH bs eq_refl E'). reflexivity.
Qed.
Definition grouped_pos zs (pos : list (vec Qc)) nums : list (vec Qc) := flat_map (fun z => of_number z pos nums) zs.
Lemma read_blocks zs syms pos nums : Forall2 is_element zs syms ->
  mapM (fun line => do fs <- mapM parse_float (firstn 3 (split line)); row3 fs) (concat (block_list zs syms pos nums)) =
  Ok (map (vmap fval) (grouped_pos zs pos nums)).
Proof.
  induction 1 as [|z s zs syms H F IH]; [reflexivity|]. unfold block_list, grouped_pos in *. cbn [combine map concat flat_map fst snd].
  rewrite map_app. apply mapM_app_ok; [|exact IH]. apply mapM_map. intros p _. apply read_atom_line. eapply element_word; eauto.
Qed.
Lemma read_symbols zs syms : Forall2 is_element zs syms -> mapM (fun s => do sp <- Specie_new s; Ok (sp_Z sp)) syms = Ok zs.
Proof.
  induction 1 as [|z s zs syms H F IH]; [reflexivity|]. cbn. destruct (Specie_new_total H) as (sp & -> & <-). cbn. rewrite IH. reflexivity.
Qed.
Lemma expand_counts (count : Z -> nat) zs : expand zs (map (fun z => Z.of_nat (count z)) zs) = Ok (flat_map (fun z => repeat z (count z)) zs).
Proof. induction zs as [|z zs IH]; [reflexivity|]. cbn. rewrite IH. cbn. rewrite Nat2Z.id. reflexivity. Qed.

Definition zoom_factor (cbrt : Qc -> Qc) (lat1 : mat Qc) (zoom : Qc) : Qc :=
  if Qcltb zoom 0%Qc
  then let d := det lat1 in let vol := if Qcltb d 0%Qc then (- d)%Qc else d in cbrt (- zoom / vol)%Qc
  else zoom.

Lemma read_written cbrt g names zs syms zoom direct : written g names zs syms -> zs <> [] ->
  from_string cbrt (get_string (mkVO g names zoom) direct) =
  let lat1 := vmap (vmap (fun x => around 4 (fval x))) (lattice g) in
  Ok (vmap (vmap (fun x => x * zoom_factor cbrt lat1 (Zc zoom))%Qc) lat1,
      map (vmap (fun x => around 4 (fval x))) (grouped_pos zs (positions g) (numbers g)),
      flat_map (fun z => repeat z (count_occ Z.eq_dec (numbers g) z)) zs).
Proof.
  intros W N. unfold from_string. rewrite (get_string_eq zoom direct W), (split_text (lines_no_nl zoom direct W)).
  change (fun l => negb (blank l)) with keep. rewrite (lines_kept zoom direct W N). unfold all_lines. cbn [List.app].
  cbn [get_nth nth_error bind skipn firstn]. rewrite parse_str_int. cbn [bind].
  cbn [mapM]. rewrite !read_lattice_row. cbn [bind rows3].
  unfold counts_line, words_line. rewrite (split_words (words_of_syms (w_syms W))), (read_symbols (w_syms W)). cbn [bind].
  rewrite split_words.
  2:{ apply Forall_forall. intros s I. apply in_map_iff in I. destruct I as (z & <- & _). apply dec_word. }
  rewrite (@mapM_map _ _ _ parse_int _ (fun z => Z.of_nat (count_occ Z.eq_dec (numbers g) z))).
  2:{ intros z _. unfold count_text. rewrite parse_int_digits by (apply uint_string_digits || apply nat_text_nonempty). f_equal. apply nat_text_val. }
  cbn [bind]. rewrite expand_counts. cbn [bind].
  match goal with |- context[mapM ?f (concat ?b)] =>
    change (mapM f (concat b)) with (mapM (fun line => do fs <- mapM parse_float (firstn 3 (split line)); row3 fs) (concat b)) end.
  rewrite (read_blocks (positions g) (numbers g) (w_syms W)). cbn [bind].
  rewrite map_map. destruct (lattice g) as [[a b c] [d e f] [h i j]]. reflexivity.
Qed.
