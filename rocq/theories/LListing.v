(** The files left behind by ocubiter and ocumaker, one by one. *)
From Coq Require Import String Ascii Sorted.
From Verif Require Import Base BaseQ LBase SElement MElement LElement MGeneralCell SGeneralCell LGeneralCell MHnf MRestrict MSogen MText LText MIO SIO LIO LIO3 LIO4 LIO5 LIO6
  SSubst SSym LSym LComb LFilter SOcc SEnum LDup LLevels LMisc LSogen SCli MCli SCliApp LCli LCli2 LCli3 SOrder LOrder LOrder2 LOrder5 SExact LExact SListing POrder.
Set Implicit Arguments.
Unset Strict Implicit.
Open Scope list_scope.
Open Scope nat_scope.
Notation length := List.length.
Notation "a +++ b" := (String.append a b) (at level 60, right associativity).

(** *** listings are determined *)
Lemma nth_error_same A (l l' : list A) : (forall k, nth_error l k = nth_error l' k) -> l = l'.
Proof.
  revert l'. induction l as [|x l IH]; intros [|y l'] H; [reflexivity|discriminate (H 0)|discriminate (H 0)|].
  pose proof (H 0) as E. injection E as ->. f_equal. apply IH. intros k. exact (H (S k)).
Qed.
Lemma listing_fun c0 v Q l l' : listing c0 v Q l -> listing c0 v Q l' -> l = l'.
Proof.
  intros (Ss & S1 & H1 & F1) (Ss' & S2 & H2 & F2).
  assert (Ss = Ss') by (apply (ordered_unique before_irr before_trans S1 S2); intros S; rewrite H1, H2; tauto). subst Ss'.
  eapply Forall2_fun; [|exact F1|exact F2]. intros S c c' _ (x & X & ->) (x' & X' & ->).
  rewrite (substituted_fun (fun i => iff_refl _) X X'). reflexivity.
Qed.
Lemma listings_fun c0 v Q n l l' : listings c0 v Q n l -> listings c0 v Q n l' -> l = l'.
Proof.
  intros (ls & L1 & -> & H1) (ls' & L2 & -> & H2). f_equal. apply nth_error_same. intros k.
  destruct (nth_error ls k) as [a|] eqn:A, (nth_error ls' k) as [b|] eqn:B; try reflexivity.
  - f_equal. exact (listing_fun (H1 _ _ A) (H2 _ _ B)).
  - exfalso. apply nth_error_None in B. assert (k < length ls) by (apply nth_error_Some; congruence). lia.
  - exfalso. apply nth_error_None in A. assert (k < length ls') by (apply nth_error_Some; congruence). lia.
Qed.
Lemma vrounded_fun d x r r' : vrounded d x r -> vrounded d x r' -> r = r'.
Proof.
  intros (A & B & C) (A' & B' & C'). destruct r, r'. cbn in *.
  now rewrite (rounded_fun A), (rounded_fun B), (rounded_fun C), (rounded_fun A'), (rounded_fun B'), (rounded_fun C').
Qed.
Lemma six_doc_fun c com d d' : six_doc c com d -> six_doc c com d' -> d = d'.
Proof.
  intros (A & (B1 & B2 & B3) & C & D & E) (A' & (B1' & B2' & B3') & C' & D' & E'). destruct d as [k [l1 l2 l3] p n z], d' as [k' [l1' l2' l3'] p' n' z']. cbn in *. subst.
  rewrite (vrounded_fun B1 B1'), (vrounded_fun B2 B2'), (vrounded_fun B3 B3').
  rewrite (Forall2_fun (fun x y y' _ H H' => vrounded_fun H H') C C'). reflexivity.
Qed.
Lemma yaml_named_dec name fmt : yaml_named name fmt \/ ~ yaml_named name fmt.
Proof.
  destruct (choose_spec name fmt) as (A & _). destruct (choose name fmt) as [[|]|]; [left; now apply A|right..]; intros K; apply A in K; discriminate.
Qed.
Lemma exact_file_fun refine dump refined mode dir suffix c p p' :
  exact_file refine dump refined mode dir suffix c p -> exact_file refine dump refined mode dir suffix c p' -> p = p'.
Proof.
  intros (c1 & com & W & F & N & Y & V) (c1' & com' & W' & F' & N' & Y' & V').
  assert (c1' = c1) by (unfold written_cell in *; destruct refined; congruence). subst c1'.
  assert (com' = com) by exact (formula_unique F' F). subst com'.
  destruct p as [a t], p' as [a' t']. cbn [fst snd] in *. assert (EA : a' = a) by congruence. clear N'. subst a'. f_equal.
  destruct (yaml_named_dec a None) as [K|K].
  - destruct (Y K) as (d & D & ->). destruct (Y' K) as (d' & D' & ->). now rewrite (six_doc_fun D D').
  - exact (poscar_exact_fun (V K) (V' K)).
Qed.
Lemma indexed_fun A B (R : nat -> A -> B -> Prop) l m m' : (forall k x y y', R k x y -> R k x y' -> y = y') -> indexed R l m -> indexed R l m' -> m = m'.
Proof.
  intros H [L1 H1] [L2 H2]. apply nth_error_same. intros k.
  destruct (nth_error m k) as [a|] eqn:A0, (nth_error m' k) as [b|] eqn:B0; try reflexivity.
  - destruct (nth_error l k) as [x|] eqn:X; [|apply nth_error_None in X; assert (k < length m) by (apply nth_error_Some; congruence); lia].
    f_equal. exact (H k x a b (H1 _ _ _ X A0) (H2 _ _ _ X B0)).
  - exfalso. apply nth_error_None in B0. assert (k < length m) by (apply nth_error_Some; congruence). lia.
  - exfalso. apply nth_error_None in A0. assert (k < length m') by (apply nth_error_Some; congruence). lia.
Qed.
Lemma last_write (ws : list (string * string)) p : In p (map fst ws) -> exists l1 t l2, ws = l1 ++ (p, t) :: l2 /\ ~ In p (map fst l2).
Proof.
  induction ws as [|[a t] ws IH]; [intros []|]. intros I. destruct (in_dec string_dec p (map fst ws)) as [J|J].
  - destruct (IH J) as (l1 & t' & l2 & -> & N). exists ((a, t) :: l1), t', l2. auto.
  - destruct I as [E|I]; [|contradiction]. cbn in E. subst a. exists [], t, ws. auto.
Qed.
Lemma after_writes_fun (fs : string -> option string) ws f1 f2 : after_writes fs ws f1 -> after_writes fs ws f2 -> forall p, f1 p = f2 p.
Proof.
  intros (A & B) (A' & B') p. destruct (in_dec string_dec p (map fst ws)) as [I|I].
  - destruct (last_write I) as (l1 & t & l2 & E & N). now rewrite (B _ _ _ _ E N), (B' _ _ _ _ E N).
  - now rewrite (A _ I), (A' _ I).
Qed.

(** *** the written structures in order *)
Lemma selected_tags A B (R : A -> B -> Prop) (V : A -> Prop) (W : B -> Prop) Ss l kept : Forall2 R Ss l -> (forall S c, R S c -> (W c <-> V S)) ->
  selected W l kept -> exists Ts, selected V Ss Ts /\ Forall2 R Ts kept.
Proof.
  intros F H. revert kept. induction F as [|S c Ss l HR F IH]; intros kept SEL; inversion SEL; subst.
  - exists []. split; constructor.
  - match goal with X : selected W l _ |- _ => destruct (IH _ X) as (Ts & A1 & A2) end. exists (S :: Ts). split; [|now constructor].
    apply sel_keep; [now apply (H S c)|exact A1].
  - match goal with X : selected W l _ |- _ => destruct (IH _ X) as (Ts & A1 & A2) end. exists Ts. split; [|assumption].
    apply sel_drop; [intros K; apply (H S c) in K; auto|exact A1].
Qed.
Lemma listing_selected o v (Q : list nat -> Prop) t psize mpr tr kept : in_order o v Q t ->
  selected (wanted psize mpr tr) (items t) kept ->
  listing (init_cell o) v (fun S => Q S /\ wanted_set psize mpr tr (init_cell o) v S) kept.
Proof.
  intros (Ss & S1 & H1 & _ & F) SEL.
  assert (F' : Forall2 (fun S c => exists x, substituted (numbers (init_cell o)) S v x /\ c = decorated (init_cell o) x) Ss (items t)).
  { clear - F. induction F as [|S c Ss l [Hf Hs] F IH]; constructor; [|exact IH]. exists (numbers c). split; [exact Hs|exact (frame_decorated Hf)]. }
  assert (X0 : exists Ts, selected (wanted_set psize mpr tr (init_cell o) v) Ss Ts /\
    Forall2 (fun S c => exists x, substituted (numbers (init_cell o)) S v x /\ c = decorated (init_cell o) x) Ts kept).
  { apply (selected_tags F') with (2 := SEL). intros S c (x & X & ->). split.
    - intros W. exists x. auto.
    - intros (x' & X' & W). now rewrite (substituted_fun (fun i => iff_refl _) X X'). }
  destruct X0 as (Ts & ST & FT). exists Ts. split; [exact (subseq_sorted (selected_subseq ST) S1)|]. split; [|exact FT].
  intros S. rewrite (selected_in S ST), H1. tauto.
Qed.
Lemma selected_app_inv A (W : A -> Prop) l m k : selected W (l ++ m) k -> exists a b, k = a ++ b /\ selected W l a /\ selected W m b.
Proof.
  revert k. induction l as [|x l IH]; cbn; intros k H.
  - exists [], k. split; [reflexivity|]. split; [constructor|exact H].
  - inversion H; subst.
    + match goal with X : selected W (l ++ m) _ |- _ => destruct (IH _ X) as (a & b & -> & A1 & A2) end. exists (x :: a), b. split; [reflexivity|]. split; [now constructor|exact A2].
    + match goal with X : selected W (l ++ m) _ |- _ => destruct (IH _ X) as (a & b & -> & A1 & A2) end. exists a, b. split; [reflexivity|]. split; [now apply sel_drop|exact A2].
Qed.
Lemma selected_flat A B (W : B -> Prop) (f : A -> list B) ts kept : selected W (List.flat_map f ts) kept ->
  exists ls, length ls = length ts /\ kept = List.concat ls /\ forall k l, nth_error ls k = Some l -> exists t, nth_error ts k = Some t /\ selected W (f t) l.
Proof.
  revert kept. induction ts as [|t ts IH]; cbn [List.flat_map]; intros kept H.
  - inversion H; subst. exists []. split; [reflexivity|]. split; [reflexivity|]. intros [|k] l; discriminate.
  - apply selected_app_inv in H. destruct H as (a & b & -> & Ha & Hb). destruct (IH _ Hb) as (ls & L & -> & HL). exists (a :: ls).
    split; [cbn; lia|]. split; [reflexivity|]. intros [|k] l E; cbn in E; [injection E as <-; exists t; auto|]. exact (HL k l E).
Qed.

(** *** names and texts *)
Lemma supported_dec z : {supported z} + {~ supported z}.
Proof. unfold supported. destruct (Z_le_dec 0 z), (Z_le_dec z 56), (Z_le_dec 72 z), (Z_le_dec z 88); (left; lia) || (right; lia). Qed.
Lemma comment_supported c com : comment c = Ok com -> Forall supported (numbers c) /\ formula (numbers c) com.
Proof.
  intros C. assert (S : Forall supported (numbers c)).
  { unfold comment in C. destruct (mapM to_name (numbers c)) eqn:E; [|discriminate].
    destruct (Forall_dec supported supported_dec (numbers c)) as [F|F]; [exact F|].
    rewrite (mapM_to_name_err F) in E. discriminate. }
  split; [exact S|]. destruct (comment_spec c S) as (s & E & F). rewrite E in C. now injection C as <-.
Qed.
Lemma structure_exact refine dump refined mode dir suffix c p :
  (forall c', written_cell refine refined c c' -> length (positions c') = length (numbers c')) ->
  structure_file refine dump refined mode dir suffix c p -> exact_file refine dump refined mode dir suffix c p.
Proof.
  intros L (c' & com & f & W & C & N & CH & R). exists c', com. destruct (comment_supported C) as (S & F).
  split; [exact W|]. split; [exact F|]. split; [exact N|]. destruct (choose_spec (fst p) None) as (A & B & _).
  split; intros K.
  - assert (f = Fyaml) by (apply A in K; congruence). subst f. cbn [render] in R. unfold yaml_doc in R.
    unfold comment in C. destruct (mapM to_name (numbers c')) as [names|e] eqn:E; [|discriminate]. cbn [bind] in R, C. injection R as R.
    eexists. split; [|symmetry; exact R]. injection C as <-. unfold six_doc. cbn [y_comment y_lattice y_positions y_numbers y_zoom].
    split; [reflexivity|]. split; [repeat split; apply around_rounded|]. split; [|auto].
    clear. induction (positions c') as [|q l IH]; cbn; [constructor|]. constructor; [repeat split; apply around_rounded|exact IH].
  - destruct f; [exfalso; apply K, A; exact CH|]. cbn [render] in R. destruct (exact_text (g := c') 1 true S (L _ W)) as (v & V & T).
    rewrite V in R. cbn [bind] in R. injection R as <-. exact T.
Qed.
Lemma GeneralCell_lengths lat pos nums c : GeneralCell_new lat pos nums = Ok c -> length (positions c) = length (numbers c).
Proof.
  intros E. destruct (GeneralCell_new_inv _ _ _ E) as [N K].
  destruct (le_lt_dec (length pos) (length nums)) as [H|H].
  - rewrite GeneralCell_new_ok in E by auto. injection E as <-. cbn. now rewrite sortp_length, sortn_length.
  - rewrite GeneralCell_new_few_numbers in E by assumption. discriminate.
Qed.

Lemma written_lengths standardize refined c0 x c' : from_constructor c0 -> length x = length (numbers c0) ->
  written_cell (get_refined_pcell standardize) refined (decorated c0 x) c' -> length (positions c') = length (numbers c').
Proof.
  intros FC L W. unfold written_cell in W. destruct refined.
  - unfold get_refined_pcell in W. destruct (standardize _) as [[lat pos] nums]. exact (GeneralCell_lengths W).
  - subst c'. cbn. rewrite L. exact (proj1 (proj2 (constructor_again FC))).
Qed.
Lemma listing_members c0 v Q l c : listing c0 v Q l -> In c l -> exists x, length x = length (numbers c0) /\ c = decorated c0 x.
Proof.
  intros (Ss & _ & _ & F) I. induction F as [|S d Ss l (x & X & E) F IH]; [destruct I|]. destruct I as [<-|I]; [|exact (IH I)].
  exists x. split; [exact (proj1 X)|exact E].
Qed.
Lemma listings_members c0 v Q n l c : listings c0 v Q n l -> In c l -> exists x, length x = length (numbers c0) /\ c = decorated c0 x.
Proof.
  intros (ls & _ & -> & H) I. apply in_concat in I as (m & Im & I). apply In_nth_error in Im as (k & E). exact (listing_members (H _ _ E) I).
Qed.

(** *** the two commands *)
Lemma exact_files standardize dump a dir suffix kept ws : from_constructor (a_cell a) ->
  (forall c, In c kept -> exists x, length x = length (numbers (a_cell a)) /\ c = decorated (a_cell a) x) ->
  indexed (fun k => structure_file (get_refined_pcell standardize) dump (a_refined a) (a_outmode a) dir (suffix k)) kept ws ->
  indexed (fun k => exact_file (get_refined_pcell standardize) dump (a_refined a) (a_outmode a) dir (suffix k)) kept ws.
Proof.
  intros FC M [L H]. split; [exact L|]. intros k c p Ec Ep. apply structure_exact; [|exact (H k c p Ec Ep)].
  intros c' W. destruct (M c (nth_error_In _ _ Ec)) as (x & LX & ->). exact (written_lengths FC LX W).
Qed.
Lemma left_fun standardize dump a dir suffix fs r r' (L : list gcell -> Prop) : (forall l l', L l -> L l' -> l = l') ->
  left_behind standardize dump a dir suffix fs r L -> left_behind standardize dump a dir suffix fs r' L -> forall p, o_files r p = o_files r' p.
Proof.
  intros H (_ & kept & ws & K & I & W) (_ & kept' & ws' & K' & I' & W'). rewrite (H _ _ K' K) in I'. clear K'.
  assert (ws' = ws) by (eapply indexed_fun; [|exact I'|exact I]; cbv beta; intros k x y y' H1 H2; exact (exact_file_fun H1 H2)). subst ws'.
  exact (after_writes_fun W W').
Qed.

Section Runs.
Context (spg_ops : gcell -> list symop) (spg_wyckoffs : gcell -> list string)
  (psize : mat Qc * list (vec Qc) * list Z -> nat)
  (standardize : mat Qc * list (vec Qc) * list Z -> mat Qc * list (vec Qc) * list Z)
  (h : list Z -> Z) (dump : ydoc -> string).

Lemma biter_left a n cwd rd suffix fs ds o tr :
  let D := k_fold (numbers (a_cell a)) (site_holds (numbers (a_cell a)) (a_ele a)) n (a_speckle a) in
  ds (structures_dir cwd (a_comment a) rd) = false ->
  make_occ spg_ops spg_wyckoffs (a_cell a) = Ok o -> restriction_of (a_tr a) = Ok tr -> a_n a = Z.of_nat n ->
  from_constructor (a_cell a) -> perm_group (length (numbers (a_cell a))) (sym_perm o) -> preserves (sym_perm o) (numbers (a_cell a)) ->
  collision_free h D -> class_inputs psize standardize a tr o D ->
  left_behind standardize dump a (structures_dir cwd (a_comment a) rd) suffix fs
    (biter_run spg_ops spg_wyckoffs psize standardize h dump a cwd rd suffix fs ds)
    (listing (a_cell a) (a_speckle a) (fun S => leader (sym_perm o) (numbers (a_cell a)) (site_holds (numbers (a_cell a)) (a_ele a)) n (a_speckle a) S /\
       wanted_set psize (a_mpr a) tr (a_cell a) (a_speckle a) S)).
Proof.
  intros D DS MO RT EN FC HG PR CF CI.
  destruct (@biter_classes spg_ops spg_wyckoffs psize standardize h dump a n cwd rd suffix fs ds o tr DS MO RT EN FC HG PR CF CI) as (EX & _).
  destruct (@run_app_spec spg_ops spg_wyckoffs psize standardize dump a (fun o => [gen_nodup_of_ele h o (a_ele a) (a_n a) (a_speckle a)]) cwd rd suffix fs ds o tr DS MO RT) as (R & _).
  destruct R as (d & rest & kept & ws & E & SEL & I & W & N). rewrite (N EX), app_nil_r in E. cbn [List.flat_map] in E. rewrite app_nil_r in E. subst d.
  split; [exact EX|]. exists kept, ws. pose proof (make_occ_cell MO) as EC. unfold D in CF. rewrite <- EC in FC, HG, PR, CF.
  pose proof (C104_leaders_element h o (a_ele a) n (a_speckle a) FC HG PR CF) as O. rewrite EN in SEL.
  pose proof (listing_selected O SEL) as LK. rewrite EC in LK, FC. split; [exact LK|]. split; [|exact W].
  exact (exact_files FC (fun c I => listing_members LK I) I).
Qed.
Lemma maker_left a cwd rd suffix fs ds o tr :
  let P := fun i => site_holds (numbers (a_cell a)) (a_ele a) i /\ site_not (numbers (a_cell a)) (a_speckle a) i in
  let n := Z.to_nat (a_n a - Z.of_nat (count_occ Z.eq_dec (numbers (a_cell a)) (a_speckle a))) in
  ds (structures_dir cwd (a_comment a) rd) = false ->
  make_occ spg_ops spg_wyckoffs (a_cell a) = Ok o -> restriction_of (a_tr a) = Ok tr ->
  from_constructor (a_cell a) -> perm_group (length (numbers (a_cell a))) (sym_perm o) -> preserves (sym_perm o) (numbers (a_cell a)) ->
  (forall k, k <= n -> collision_free h (k_fold (numbers (a_cell a)) P k (a_speckle a))) ->
  class_inputs psize standardize a tr o (maker_set a) ->
  left_behind standardize dump a (structures_dir cwd (a_comment a) rd) suffix fs
    (maker_run spg_ops spg_wyckoffs psize standardize h dump a cwd rd suffix fs ds)
    (listings (a_cell a) (a_speckle a) (fun k S => leader (sym_perm o) (numbers (a_cell a)) P k (a_speckle a) S /\
       wanted_set psize (a_mpr a) tr (a_cell a) (a_speckle a) S) n).
Proof.
  intros P n DS MO RT FC HG PR CF CI.
  destruct (@maker_classes spg_ops spg_wyckoffs psize standardize h dump a cwd rd suffix fs ds o tr DS MO RT FC HG PR CF CI) as (EX & _).
  destruct (@run_app_spec spg_ops spg_wyckoffs psize standardize dump a (fun o => all_speckle_gen_of_ele h o (a_n a) (a_ele a) (a_speckle a)) cwd rd suffix fs ds o tr DS MO RT) as (R & _).
  destruct R as (d & rest & kept & ws & E & SEL & I & W & N). rewrite (N EX), app_nil_r in E. subst d.
  split; [exact EX|]. exists kept, ws. pose proof (make_occ_cell MO) as EC. unfold P, n in *. clear P n. rewrite <- EC in FC, HG, PR, CF.
  destruct (C23_lemma FC HG PR CF) as (LL & _). pose proof (C105_levels_element h o (a_n a) (a_ele a) (a_speckle a) FC HG PR CF) as O.
  destruct (selected_flat SEL) as (ls & L & K & HL).
  assert (LK : listings (init_cell o) (a_speckle a) (fun k S => leader (sym_perm o) (numbers (init_cell o))
     (fun i => site_holds (numbers (init_cell o)) (a_ele a) i /\ site_not (numbers (init_cell o)) (a_speckle a) i) k (a_speckle a) S /\
       wanted_set psize (a_mpr a) tr (init_cell o) (a_speckle a) S) (Z.to_nat (a_n a - Z.of_nat (count_occ Z.eq_dec (numbers (init_cell o)) (a_speckle a)))) kept).
  { exists ls. split; [rewrite L; exact LL|]. split; [exact K|]. intros k l El. destruct (HL k l El) as (t & Et & St).
    exact (listing_selected (O k t Et) St). }
  rewrite EC in LK, FC. split; [exact LK|]. split; [|exact W].
  exact (exact_files FC (fun c I => listings_members LK I) I).
Qed.
End Runs.
