(** The files left behind by ocutenter and ocumakert, one by one. *)
From Coq Require Import String Ascii Sorted.
From Verif Require Import Base BaseQ LBase SElement MElement LElement MGeneralCell SGeneralCell LGeneralCell MRestrict MSogen MText MIO SIO LIO LIO3 LIO6
  SSubst SSym LSym SOcc SEnum LMisc LSogen SCli MCli SCliApp LCli LCli2 LCli3 LCli4 LCli5 LCli6 SOrder LOrder LOrder2 LOrder5 SExact LExact SListing LListing POrder.
Set Implicit Arguments.
Unset Strict Implicit.
Open Scope list_scope.
Open Scope nat_scope.
Notation length := List.length.

(** *** determined *)
Lemma listing2_fun c0 v1 v2 Q l l' : listing2 c0 v1 v2 Q l -> listing2 c0 v1 v2 Q l' -> l = l'.
Proof.
  intros (Ss & S1 & H1 & F1) (Ss' & S2 & H2 & F2).
  assert (Ss = Ss') by (apply (ordered_unique before2_irr before2_trans S1 S2); intros S; rewrite H1, H2; tauto). subst Ss'.
  eapply Forall2_fun; [|exact F1|exact F2]. intros S c c' _ (x & X & ->) (x' & X' & ->).
  rewrite (substituted2_fun X X'). reflexivity.
Qed.
Lemma compositions_fun c0 v1 v2 Q comps l l' : compositions c0 v1 v2 Q comps l -> compositions c0 v1 v2 Q comps l' -> l = l'.
Proof.
  intros C. revert l'. induction C as [|n1 n2 comps cs out L C IH]; intros l' C'; inversion C'; subst; [reflexivity|].
  f_equal; [f_equal; eapply listing2_fun; eassumption|auto].
Qed.
Lemma fewer_irr n : ~ fewer n n.
Proof. unfold fewer. lia. Qed.
Lemma fewer_trans a b c : fewer a b -> fewer b c -> fewer a c.
Proof. unfold fewer. lia. Qed.
Lemma ternary_exact_fun dump mode c t t' : ternary_exact dump mode c t -> ternary_exact dump mode c t' -> t = t'.
Proof.
  intros (A & B) (A' & B'). destruct (string_dec mode "vasp") as [E|E]; [exact (poscar_exact_fun (A E) (A' E))|].
  destruct (B E) as (com & F & ->). destruct (B' E) as (com' & F' & ->). now rewrite (formula_unique F F').
Qed.
Lemma ternary_start_fun mode dir n0 n1 n2 s s' : ternary_start mode dir n0 n1 n2 s -> ternary_start mode dir n0 n1 n2 s' -> s = s'.
Proof.
  intros (a0 & a1 & a2 & A0 & A1 & A2 & H1 & H2) (b0 & b1 & b2 & B0 & B1 & B2 & G1 & G2).
  rewrite (int_text_fun A0 B0), (int_text_fun A1 B1), (int_text_fun A2 B2) in *.
  destruct (string_dec mode "vasp") as [E|E]; [rewrite (H1 E), (G1 E)|rewrite (H2 E), (G2 E)]; reflexivity.
Qed.
Lemma filed_fun standardize dump a dir tmp l fs f f' : filed standardize dump a dir tmp l fs f -> filed standardize dump a dir tmp l fs f' -> f = f'.
Proof.
  intros F. revert f'. induction F as [fs|c n1 n2 rest fs fs' c' s t W T N name F IH]; intros f' F'; [now inversion F'|].
  inversion F' as [|? ? ? ? ? ? c2 s2 t2 W2 T2 N2 name2 F2]; subst. apply IH.
  assert (c2 = c') by (unfold written_cell in *; destruct (t_refined a); congruence). subst c2.
  rewrite (ternary_exact_fun T2 T) in F2. unfold name2 in F2. rewrite (ternary_start_fun N2 N) in F2. exact F2.
Qed.

(** *** the run *)
Lemma listing2_selected o v1 v2 (Q : list nat * list nat -> Prop) t psize mpr tr kept : in_order2 o v1 v2 Q t ->
  selected (wanted psize mpr tr) (items t) kept ->
  listing2 (init_cell o) v1 v2 (fun S => Q S /\ wanted_pair psize mpr tr (init_cell o) v1 v2 S) kept.
Proof.
  intros (Ss & S1 & H1 & _ & F) SEL.
  assert (F' : Forall2 (fun S c => exists x, substituted2 (numbers (init_cell o)) S v1 v2 x /\ c = decorated (init_cell o) x) Ss (items t)).
  { clear - F. induction F as [|S c Ss l [Hf Hs] F IH]; constructor; [|exact IH]. exists (numbers c). split; [exact Hs|exact (frame_decorated Hf)]. }
  assert (X0 : exists Ts, selected (wanted_pair psize mpr tr (init_cell o) v1 v2) Ss Ts /\
    Forall2 (fun S c => exists x, substituted2 (numbers (init_cell o)) S v1 v2 x /\ c = decorated (init_cell o) x) Ts kept).
  { apply (selected_tags F') with (2 := SEL). intros S c (x & X & ->). split.
    - intros W. exists x. auto.
    - intros (x' & X' & W). now rewrite (substituted2_fun X X'). }
  destruct X0 as (Ts & ST & FT). exists Ts. split; [exact (subseq_sorted (selected_subseq ST) S1)|]. split; [|exact FT].
  intros S. rewrite (selected_in S ST), H1. tauto.
Qed.
Lemma names_supported c names : mapM to_name (numbers c) = Ok names -> Forall supported (numbers c) /\ formula (numbers c) (comment_of (ordered_atoms names)).
Proof.
  intros E. apply comment_supported. unfold comment. rewrite E. reflexivity.
Qed.
Lemma legacy_exact dump mode c t : length (positions c) = length (numbers c) -> legacy_render dump mode c = Ok t -> ternary_exact dump mode c t.
Proof.
  intros L R. unfold legacy_render in R. destruct (String.eqb_spec mode "vasp") as [E|E].
  - split; [intros _|contradiction]. destruct (VaspOutput_new c 1) as [v|] eqn:V; [|discriminate]. cbn [bind] in R. injection R as <-.
    assert (S : Forall supported (numbers c)).
    { unfold VaspOutput_new in V. destruct (mapM to_name (numbers c)) eqn:M; [|discriminate]. exact (proj1 (names_supported M)). }
    destruct (exact_text (g := c) 1 true S L) as (v' & V' & T). rewrite V' in V. injection V as <-. exact T.
  - split; [contradiction|intros _]. unfold legacy_yaml_doc in R. destruct (mapM to_name (numbers c)) as [names|] eqn:M; [|discriminate]. cbn [bind] in R. injection R as <-.
    exists (comment_of (ordered_atoms names)). split; [exact (proj2 (names_supported M))|reflexivity].
Qed.
Lemma prefix_start mode dir n0 n1 n2 : ternary_start mode dir n0 n1 n2 (slash dir (ternary_prefix mode n0 n1 n2)).
Proof.
  exists (str_int n0), (str_int n1), (str_int n2). split; [apply str_int_text|]. split; [apply str_int_text|]. split; [apply str_int_text|].
  unfold ternary_prefix, slash. split; intros E; [subst mode; reflexivity|]. apply String.eqb_neq in E. rewrite E. reflexivity.
Qed.
Lemma ext_same mode : ternary_ext mode = (if string_dec mode "vasp" then ".vasp" else ".yaml")%string.
Proof. unfold ternary_ext. destruct (String.eqb_spec mode "vasp"), (string_dec mode "vasp"); congruence. Qed.

Section Runs.
Context (spg_ops : gcell -> list symop) (spg_wyckoffs : gcell -> list string)
  (psize : mat Qc * list (vec Qc) * list Z -> nat)
  (standardize : mat Qc * list (vec Qc) * list Z -> mat Qc * list (vec Qc) * list Z)
  (h : list Z -> Z) (dump : ydoc -> string).

Lemma emit_filed a tr dir tmp n1 n2 cells :
  (forall c c', In c cells -> written_cell (get_refined_pcell standardize) (t_refined a) c c' -> length (positions c') = length (numbers c')) ->
  forall k fs, let r := emit (accepted psize (t_mpr a) tr) (fun _ => tsave standardize dump a dir tmp (Z.of_nat (t_size a) - Z.of_nat n1 - Z.of_nat n2)%Z (Z.of_nat n1) (Z.of_nat n2)) cells k fs in
  snd r = None -> exists kept, selected (wanted psize (t_mpr a) tr) cells kept /\
    forall rest f, filed standardize dump a dir tmp rest (snd (fst r)) f -> filed standardize dump a dir tmp (map (fun c => (c, (n1, n2))) kept ++ rest) fs f.
Proof.
  induction cells as [|c cells IH]; intros L k fs; cbn [emit]; cbv zeta.
  - intros _. exists []. split; [constructor|]. intros rest f F. exact F.
  - specialize (IH (fun d d' I => L d d' (or_intror I))). pose proof (accepted_iff psize (t_mpr a) tr c) as AI.
    destruct (accepted psize (t_mpr a) tr c) as [[|]|e].
    + destruct (tsave _ _ _ _ _ _ _ _ c fs) as [fs1|e] eqn:TS; [|discriminate]. intros N. destruct (IH _ _ N) as (kept & SEL & H).
      exists (c :: kept). split; [apply sel_keep; [now apply AI|exact SEL]|]. intros rest f F. cbn [map List.app].
      unfold tsave in TS. destruct (final_cell standardize (t_refined a) c) as [c'|] eqn:FC; [|discriminate]. cbn [bind] in TS.
      apply final_cell_iff in FC. destruct (legacy_render dump (t_outmode a) c') as [t|] eqn:LR; [|discriminate]. cbn [bind] in TS. injection TS as <-.
      eapply filed_one; [exact FC|exact (legacy_exact (L c c' (or_introl eq_refl) FC) LR)|apply prefix_start|]. rewrite <- ext_same. exact (H rest f F).
    + intros N. destruct (IH _ _ N) as (kept & SEL & H). exists kept. split; [|exact H]. apply sel_drop; [|exact SEL]. intros W. apply AI in W. discriminate.
    + discriminate.
Qed.

Lemma ternary_filed N early a comps cwd rd tmp fs ds o tr s1 s2 :
  ds (structures_dir cwd (t_comment a) rd) = false ->
  make_occ spg_ops spg_wyckoffs (t_cell a) = Ok o -> restriction_of (t_tr a) = Ok tr -> fresh_names N tmp ->
  Specie_new (t_s1 a) = Ok s1 -> Specie_new (t_s2 a) = Ok s2 ->
  from_constructor (t_cell a) -> perm_group (length (numbers (t_cell a))) (sym_perm o) -> preserves (sym_perm o) (numbers (t_cell a)) ->
  (forall n1 n2, In (n1, n2) comps -> collision_free h (two_fold (numbers (t_cell a)) n1 (sp_Z s1) n2 (sp_Z s2))) ->
  ternary_inputs psize standardize a tr o (sp_Z s1) (sp_Z s2) comps ->
  let r := run_ternary spg_ops spg_wyckoffs psize standardize h dump early a (map zpair comps) cwd rd tmp fs ds in
  o_exn r = None /\ exists out,
    compositions (t_cell a) (sp_Z s1) (sp_Z s2) (fun n1 n2 S =>
      leader2 (sym_perm o) (numbers (t_cell a)) (any_site (numbers (t_cell a))) n1 n2 (sp_Z s1) (sp_Z s2) S /\
      wanted_pair psize (t_mpr a) tr (t_cell a) (sp_Z s1) (sp_Z s2) S) comps out /\
    filed standardize dump a (structures_dir cwd (t_comment a) rd) tmp out fs (o_files r).
Proof.
  intros DS MO RT FR ES1 ES2 FC PG PR CF TI.
  pose proof (@ternary_classes spg_ops spg_wyckoffs psize standardize h dump N early a comps cwd rd tmp fs ds o tr s1 s2 DS MO RT FR ES1 ES2 FC PG PR CF TI) as (EX & _).
  cbv zeta. split; [exact EX|]. revert EX. unfold run_ternary. rewrite DS, MO. cbn [bind].
  assert (ER : (do _ <- (if early then do _ <- Specie_new (t_s1 a); do _ <- Specie_new (t_s2 a); Ok tt else Ok tt);
           do tr <- restriction_of (t_tr a); Ok (o, tr)) = Ok (o, tr)).
  { destruct early; [rewrite ES1; cbn [bind]; rewrite ES2|]; cbn [bind]; rewrite RT; reflexivity. }
  rewrite ER. clear ER. pose proof (make_occ_cell MO) as EC. set (dir := structures_dir cwd (t_comment a) rd).
  assert (O : forall n1 n2, In (n1, n2) comps -> in_order2 o (sp_Z s1) (sp_Z s2) (leader2 (sym_perm o) (numbers (init_cell o)) (any_site (numbers (init_cell o))) n1 n2 (sp_Z s1) (sp_Z s2))
     (gen_nodup_trinary_alloy h o (sp_Z s1) (Z.of_nat n1) (sp_Z s2) (Z.of_nat n2))).
  { intros n1 n2 I. rewrite <- EC in *. apply C104_leaders_ternary; auto. }
  clear CF TI DS MO. revert fs.
  induction comps as [|[n1 n2] comps IH]; intros fs; cbn [map emit_comps].
  - intros _. exists []. split; constructor.
  - cbn [zpair fst snd]. unfold ternary_gen at 1 3. rewrite ES1. cbn [bind]. rewrite ES2. cbn [bind]. unfold emit_trace.
    pose proof (O n1 n2 (or_introl eq_refl)) as O1.
    pose proof (@emit_filed a tr dir tmp n1 n2 (items (gen_nodup_trinary_alloy h o (sp_Z s1) (Z.of_nat n1) (sp_Z s2) (Z.of_nat n2)))) as EF.
    assert (L : forall c c', In c (items (gen_nodup_trinary_alloy h o (sp_Z s1) (Z.of_nat n1) (sp_Z s2) (Z.of_nat n2))) ->
      written_cell (get_refined_pcell standardize) (t_refined a) c c' -> length (positions c') = length (numbers c')).
    { intros c c' I W. destruct O1 as (Ss & _ & _ & _ & F). rewrite EC in F. clear - F I W FC.
      induction F as [|S d Ss l [Hf Hs] F IH]; [destruct I|]. destruct I as [<-|I]; [|exact (IH I)].
      rewrite (frame_decorated Hf) in W. refine (written_lengths FC _ W). exact (proj1 Hs). }
    specialize (EF L 0 fs). cbv zeta in EF.
    destruct (emit _ _ (items (gen_nodup_trinary_alloy h o (sp_Z s1) (Z.of_nat n1) (sp_Z s2) (Z.of_nat n2))) 0 fs) as [[k' fs1] e]. cbn [fst snd] in EF.
    destruct e as [e|]; [discriminate|]. destruct (EF eq_refl) as (kept & SEL & H).
    assert (ST : stop (gen_nodup_trinary_alloy h o (sp_Z s1) (Z.of_nat n1) (sp_Z s2) (Z.of_nat n2)) = None) by (destruct O1 as (Ss & _ & _ & ST & _); exact ST).
    rewrite ST. intros EX. destruct (IH (fun m1 m2 I => O m1 m2 (or_intror I)) fs1 EX) as (out & CO & FI).
    exists (map (fun c => (c, (n1, n2))) kept ++ out). split.
    + constructor; [|exact CO]. rewrite <- EC. exact (listing2_selected O1 SEL).
    + apply H. exact FI.
Qed.
End Runs.

(** *** order of the compositions *)
Lemma map_seq_sorted A (R : A -> A -> Prop) (f : nat -> A) n : (forall i j, i < j -> R (f i) (f j)) -> forall s, StronglySorted R (map f (seq s n)).
Proof.
  intros H. induction n as [|n IH]; intros s; cbn; constructor; [apply IH|]. apply Forall_forall. intros y I. apply in_map_iff in I as (j & <- & J).
  apply in_seq in J. apply H. lia.
Qed.
Lemma sorted_app A (R : A -> A -> Prop) l m : StronglySorted R l -> StronglySorted R m -> (forall x y, In x l -> In y m -> R x y) -> StronglySorted R (l ++ m).
Proof.
  induction l as [|a l IH]; cbn; intros S1 S2 H; [exact S2|]. inversion S1; subst. constructor; [apply IH; auto|].
  apply Forall_forall. intros y I. apply in_app_iff in I as [I|I]; [|apply H; auto]. match goal with X : Forall _ l |- _ => rewrite Forall_forall in X; auto end.
Qed.
Lemma sorted_flat A B (R : A -> A -> Prop) (S : B -> B -> Prop) (f : A -> list B) l : StronglySorted R l -> (forall x, StronglySorted S (f x)) ->
  (forall x y a b, R x y -> In a (f x) -> In b (f y) -> S a b) -> StronglySorted S (List.flat_map f l).
Proof.
  intros SR SF H. induction SR as [|x l SR IH F]; cbn; [constructor|]. apply sorted_app; auto.
  intros a b Ia Ib. apply in_flat_map in Ib as (y & Iy & Ib). rewrite Forall_forall in F. exact (H x y a b (F y Iy) Ia Ib).
Qed.
Lemma sorted_map A B (R : A -> A -> Prop) (S : B -> B -> Prop) (f : A -> B) l : StronglySorted R l -> (forall x y, In x l -> In y l -> R x y -> S (f x) (f y)) -> StronglySorted S (map f l).
Proof.
  intros SR. induction SR as [|x l SR IH F]; cbn; intros H; constructor; [apply IH; auto|]. rewrite Forall_forall in F.
  apply Forall_forall. intros b I. apply in_map_iff in I as (y & <- & I). apply H; auto.
Qed.
Lemma ncomps_sorted n : StronglySorted fewer (ncomps n).
Proof.
  unfold ncomps. apply sorted_map with (R := fun x y : Z * Z => (fst x < fst y \/ fst x = fst y /\ snd x < snd y)%Z).
  - unfold makert_comps. apply sorted_flat with (R := Z.lt).
    + unfold zrange2. apply map_seq_sorted. intros i j L. lia.
    + intros x. unfold zrange2. rewrite map_map. apply map_seq_sorted. intros i j L. cbn [fst snd]. lia.
    + intros x y a b L Ia Ib. apply in_map_iff in Ia as (? & <- & _). apply in_map_iff in Ib as (? & <- & _). cbn [fst snd]. lia.
  - intros [a b] [c d] I J. apply comps_In in I. apply comps_In in J. unfold fewer. cbn [fst snd]. lia.
Qed.
