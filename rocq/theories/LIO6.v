(** YAML round trip and choice of the format. *)
From Coq Require Import String Ascii Sorted.
From Verif Require Import Base LBase BaseQ LQ SElement MElement LElement MSort LSort MGeneralCell SGeneralCell LGeneralCell
  MText LText MIO SIO LIO LIO2 LIO3 LIO4 LIO5.
Set Implicit Arguments.
Unset Strict Implicit.
Open Scope string_scope.
Open Scope list_scope.
Open Scope Z_scope.
Notation length := List.length.
Notation "a +++ b" := (String.append a b) (at level 60, right associativity).

(** *** C55 *)
Lemma around6_within x : within (Q2Qc (1 # 2000000)) x (around 6 x).
Proof.
  destruct (around_near 6 x) as [K1 K2]. unfold within. change (pow10 6) with 1000000%positive in *.
  generalize dependent (around 6 x). intros r K1 K2.
  split; qcpush; change (inject_Z 2) with 2%Q in *; change (inject_Z 1000000) with 1000000%Q in *; change (this 1%Qc) with 1%Q in *; lra.
Qed.
Lemma yaml_within x : within tol x (around 4 (around 6 x)).
Proof. apply around4_within, around6_within. Qed.
Lemma yaml_doc_ok g : Forall supported (numbers g) -> exists d, yaml_doc g = Ok d /\ y_numbers d = numbers g /\ formula (numbers g) (y_comment d) /\
  y_zoom d = 1%Qc /\ y_lattice d = vmap (vmap (around 6)) (lattice g) /\ y_positions d = map (vmap (around 6)) (positions g).
Proof.
  intros S. destruct (mapM_to_name S) as [names [E F]]. eexists. unfold yaml_doc. rewrite E. split; [reflexivity|]. cbn.
  repeat split. now apply comment_formula.
Qed.
Lemma mwithin_map t (f : Qc -> Qc) (h : Qc -> Qc) m : (forall x, within t x (h (f x))) -> mwithin t m (vmap (vmap h) (vmap (vmap f) m)).
Proof.
  intros H. destruct m as [[a b c] [d e g] [i j k]]. unfold mwithin, vwithin. cbn [vmap vx vy vz].
  split; [|split]; split; [apply H|split; apply H|apply H|split; apply H|apply H|split; apply H].
Qed.
Lemma vwithin_map t (f : Qc -> Qc) v : (forall x, within t x (f x)) -> vwithin t v (vmap f v).
Proof. intros H. destruct v as [a b c]. unfold vwithin. cbn [vmap vx vy vz]. split; [|split]; apply H. Qed.
Lemma C55_lemma g : Forall supported (numbers g) -> exists d lat pos, yaml_doc g = Ok d /\ formula (numbers g) (y_comment d) /\
  yaml_read d = (lat, pos, numbers g) /\ mwithin tol (lattice g) lat /\ Forall2 (vwithin tol) (positions g) pos.
Proof.
  intros S. destruct (yaml_doc_ok S) as (d & E & N & C & Z & L & P). exists d. eexists _, _. split; [exact E|]. split; [exact C|].
  unfold yaml_read. rewrite N, Z, L, P. split; [reflexivity|]. split.
  - apply mwithin_map. intros x. rewrite Qcmult_1_r. apply yaml_within.
  - rewrite map_map. clear. induction (positions g) as [|p l IH]; cbn [map]; constructor; [|exact IH].
    destruct p as [a b c]. unfold vwithin. cbn [vmap vx vy vz]. split; [|split]; apply yaml_within.
Qed.

(** *** uniqueness of the grouping *)
Lemma sorted_unique : forall a b : list (vec Qc * Z), StronglySorted Z.le (map snd a) -> StronglySorted Z.le (map snd b) ->
  (forall z, filter (fun x => snd x =? z) a = filter (fun x => snd x =? z) b) -> a = b.
Proof.
  assert (LOW : forall (x : vec Qc * Z) l z, StronglySorted Z.le (map snd (x :: l)) -> filter (fun x => snd x =? z) (x :: l) <> [] -> snd x <= z).
  { intros x l z S N. inversion S as [|? ? S' F]; subst. destruct (filter _ _) as [|y r] eqn:E in N; [congruence|].
    assert (I : In y (filter (fun x => snd x =? z) (x :: l))) by (rewrite E; now left). apply filter_In in I. destruct I as [I K]. apply Z.eqb_eq in K. subst z.
    destruct I as [->|I]; [lia|]. rewrite Forall_forall in F. apply F. now apply in_map. }
  induction a as [|x a IH]; intros b SA SB H.
  - destruct b as [|y b]; [reflexivity|]. specialize (H (snd y)). cbn in H. rewrite Z.eqb_refl in H. discriminate.
  - destruct b as [|y b]; [specialize (H (snd x)); cbn in H; rewrite Z.eqb_refl in H; discriminate|].
    assert (E : snd x = snd y).
    { apply Z.le_antisymm.
      - apply (LOW x a); [exact SA|]. rewrite H. cbn. rewrite Z.eqb_refl. discriminate.
      - apply (LOW y b); [exact SB|]. rewrite <- H. cbn. rewrite Z.eqb_refl. discriminate. }
    assert (XY : x = y). { pose proof (H (snd x)) as K. cbn in K. rewrite <- E, Z.eqb_refl in K. now injection K. }
    subst y. f_equal. inversion SA; inversion SB; subst. apply IH; auto. intros z. specialize (H z). cbn in H. destruct (snd x =? z); [now injection H|exact H].
Qed.
Lemma grouped_unique orig a b : grouped orig a -> grouped orig b -> a = b.
Proof. intros [S1 H1] [S2 H2]. apply sorted_unique; auto. intros z. now rewrite H1, H2. Qed.

(** *** glob *)
Lemma glob_star pat n : glob (String "*" pat) n = true <-> exists a b, n = a +++ b /\ glob pat b = true.
Proof.
  change (glob (String "*" pat) n) with
    ((fix star (n : string) : bool := glob pat n || match n with String _ r => star r | EmptyString => false end) n).
  induction n as [|c n IH].
  - rewrite orb_false_r. split; [intros H; exists "", ""; auto|]. intros (a & b & E & H). destruct a; [|discriminate]. cbn in E. now subst.
  - rewrite orb_true_iff, IH. split.
    + intros [H|(a & b & -> & H)]; [exists "", (String c n); auto|exists (String c a), b; auto].
    + intros (a & b & E & H). destruct a as [|d a]; cbn in E; [left; now subst|]. injection E as -> ->. right. exists a, b. auto.
Qed.
Definition star_free (c : ascii) : bool := negb (Ascii.eqb c "*").
Lemma glob_lit w pat n : allc star_free w = true -> glob (w +++ pat) n = true <-> exists b, n = w +++ b /\ glob pat b = true.
Proof.
  revert n. induction w as [|c w IH]; intros n H; cbn [String.append].
  - split; [intros; exists n; auto|]. intros (b & -> & K). exact K.
  - cbn in H. apply andb_true_iff in H. destruct H as [H1 H2]. unfold star_free in H1. apply negb_true_iff in H1.
    cbn [glob]. rewrite H1. destruct n as [|d n].
    + split; [discriminate|]. intros (b & E & _). discriminate.
    + rewrite andb_true_iff, (IH n H2), Ascii.eqb_eq. split.
      * intros (-> & b & -> & K). exists b. auto.
      * intros (b & E & K). injection E as -> ->. split; [reflexivity|]. exists b. auto.
Qed.
Lemma glob_contains w n : allc star_free w = true -> glob (String "*" (w +++ "*")) n = true <-> contains_str w n.
Proof.
  intros H. rewrite glob_star. unfold contains_str. split.
  - intros (a & b & -> & K). rewrite (glob_lit _ _ H) in K. destruct K as (b' & -> & _). eauto.
  - intros (a & b & ->). exists a, (w +++ b). split; [reflexivity|]. apply (glob_lit _ _ H). exists b. split; [reflexivity|].
    apply glob_star. exists b, "". split; [now rewrite app_nil_s|reflexivity].
Qed.
Lemma glob_ends w n : allc star_free w = true -> glob (String "*" w) n = true <-> ends_with w n.
Proof.
  intros H. rewrite glob_star. unfold ends_with. split.
  - intros (a & b & -> & K). rewrite <- (app_nil_s w) in K. rewrite (glob_lit _ _ H) in K. destruct K as (b' & -> & E).
    destruct b'; [|discriminate]. exists a. now rewrite app_nil_s.
  - intros (a & ->). exists a, w. split; [reflexivity|]. rewrite <- (app_nil_s w) at 1. apply (glob_lit _ _ H). exists "". split; [now rewrite app_nil_s|reflexivity].
Qed.

(** *** case *)
Definition all_codes : list nat := seq 0 256.
Definition small (c : ascii) : bool := Ascii.eqb (lower_ch c) c && Z.ltb (code c) 128.
Definition variantb (c c' : ascii) : bool :=
  Ascii.eqb c' c || ((Nat.leb 97 (nat_of_ascii c) && Nat.leb (nat_of_ascii c) 122) && Nat.eqb (nat_of_ascii c' + 32) (nat_of_ascii c)).
Lemma variantb_iff c c' : variantb c c' = true <-> variant c c'.
Proof. unfold variantb, variant. rewrite orb_true_iff, !andb_true_iff, Ascii.eqb_eq, !Nat.leb_le, Nat.eqb_eq. tauto. Qed.
Lemma variant_check : forallb (fun i => forallb (fun j => let c := ascii_of_nat i in let c' := ascii_of_nat j in
  negb (small c) || Bool.eqb (Ascii.eqb (lower_ch c') c) (variantb c c')) all_codes) all_codes = true.
Proof. vm_compute. reflexivity. Qed.
Lemma in_codes c : In (nat_of_ascii c) all_codes.
Proof. apply in_seq. pose proof (nat_ascii_bounded c). lia. Qed.
Lemma lower_variant c c' : small c = true -> lower_ch c' = c <-> variant c c'.
Proof.
  intros S. pose proof variant_check as V. rewrite forallb_forall in V. specialize (V _ (in_codes c)). cbv beta in V.
  rewrite forallb_forall in V. specialize (V _ (in_codes c')). cbv beta zeta in V. rewrite !ascii_nat_embedding, S in V. cbn [negb orb] in V.
  apply eqb_prop in V. rewrite <- variantb_iff, <- V, Ascii.eqb_eq. reflexivity.
Qed.
Lemma lower_spelled w : allc small w = true -> forall s, lower s = w <-> spelled w s.
Proof.
  induction w as [|c w IH]; intros H s.
  - split; [|inversion 1; reflexivity]. destruct s; [constructor|discriminate].
  - cbn in H. apply andb_true_iff in H. destruct H as [H1 H2]. split.
    + destruct s as [|d s]; [discriminate|]. cbn. intros E. injection E as E1 E2. constructor; [now apply lower_variant|now apply IH].
    + inversion 1 as [|? c' ? s' V K]; subst. cbn. f_equal; [now apply lower_variant|now apply IH].
Qed.
Lemma lower_app a b : lower (a +++ b) = lower a +++ lower b.
Proof. induction a as [|c a IH]; cbn; [reflexivity|]. now rewrite IH. Qed.
Lemma lower_split s : forall a b, lower s = a +++ b -> exists a' b', s = a' +++ b' /\ lower a' = a /\ lower b' = b.
Proof.
  induction s as [|c s IH]; intros a b E.
  - destruct a; [|discriminate]. cbn in E. subst. exists "", "". auto.
  - destruct a as [|d a]; cbn in E; [exists "", (String c s); cbn; auto|]. injection E as E1 E2. destruct (IH _ _ E2) as (a' & b' & -> & A & B).
    exists (String c a'), b'. split; [reflexivity|]. split; [|exact B]. cbn. congruence.
Qed.
Lemma lower_contains w s : allc small w = true -> contains_str w (lower s) <-> contains_any_case w s.
Proof.
  intros H. split.
  - intros (a & b & E). destruct (lower_split E) as (a' & r & -> & A & R). destruct (lower_split R) as (p & b' & -> & P & B).
    exists a', p, b'. split; [now apply lower_spelled|reflexivity].
  - intros (a & p & b & S & ->). apply (lower_spelled H) in S. exists (lower a), (lower b). now rewrite !lower_app, S.
Qed.
Lemma lower_ends w s : allc small w = true -> ends_with w (lower s) <-> ends_any_case w s.
Proof.
  intros H. split.
  - intros (a & E). destruct (lower_split E) as (a' & p & -> & A & P). exists a', p. split; [now apply lower_spelled|reflexivity].
  - intros (a & p & S & ->). apply (lower_spelled H) in S. exists (lower a). now rewrite !lower_app, S.
Qed.

(** *** choice *)
Lemma fmt_eqb w fmt : allc small w = true -> w <> "" ->
  String.eqb match fmt with None => "" | Some f => lower f end w = true <-> exists f, fmt = Some f /\ spelled w f.
Proof.
  intros H N. rewrite String.eqb_eq. destruct fmt as [f|].
  - rewrite (lower_spelled H). split; [eauto|]. intros (g & [= <-] & K). exact K.
  - split; [congruence|]. intros (g & E & _). discriminate.
Qed.
Lemma choose_tests name fmt :
  ((String.eqb match fmt with None => "" | Some f => lower f end "yaml" || glob "*.yaml*" (lower name)) = true <-> yaml_named name fmt) /\
  ((String.eqb match fmt with None => "" | Some f => lower f end "vasp" || glob "*.vasp" (lower name) || glob "*POSCAR*" name) = true <-> vasp_named name fmt).
Proof.
  unfold yaml_named, vasp_named. rewrite !orb_true_iff, !fmt_eqb by (reflexivity || discriminate).
  change "*.yaml*" with (String "*" (".yaml" +++ "*")). change "*.vasp" with (String "*" ".vasp"). change "*POSCAR*" with (String "*" ("POSCAR" +++ "*")).
  rewrite !glob_contains, glob_ends, lower_contains, lower_ends by reflexivity. tauto.
Qed.
Lemma choose_spec name fmt :
  (choose name fmt = Some Fyaml <-> yaml_named name fmt) /\
  (choose name fmt = Some Fvasp <-> ~ yaml_named name fmt /\ vasp_named name fmt) /\
  (choose name fmt = None <-> ~ yaml_named name fmt /\ ~ vasp_named name fmt).
Proof.
  destruct (choose_tests name fmt) as [T1 T2]. unfold choose. cbv zeta.
  destruct (String.eqb _ "yaml" || _) eqn:E1, (String.eqb _ "vasp" || _ || _) eqn:E2.
  all: try (assert (Y : yaml_named name fmt) by now apply T1); try (assert (Y : ~ yaml_named name fmt) by (intros K; apply T1 in K; congruence)).
  all: try (assert (V : vasp_named name fmt) by now apply T2); try (assert (V : ~ vasp_named name fmt) by (intros K; apply T2 in K; congruence)).
  all: repeat split; intros; try congruence; try tauto.
Qed.

Section Files.
Variables (dump : ydoc -> string) (load : string -> res ydoc) (cbrt : Qc -> Qc).
Lemma write_read g name fmt fs fs' out : name <> "" -> write_file dump g (Some name) fmt fs = Ok (fs', out) ->
  out = "" /\ (forall n, n <> name -> fs' n = fs n) /\
  exists f text, choose name fmt = Some f /\ render dump f g = Ok text /\ fs' name = Some text /\
    from_file load cbrt (Some name) fmt fs' = read_text load cbrt f text.
Proof.
  intros N H. unfold write_file in H. destruct (choose name fmt) as [f|] eqn:C; [|discriminate].
  destruct (render dump f g) as [text|] eqn:R; [|discriminate]. cbn in H. destruct (String.eqb_spec name ""); [congruence|].
  injection H as <- <-. split; [reflexivity|]. split; [intros m M; unfold put; destruct (String.eqb_spec m name); congruence|].
  exists f, text. split; [reflexivity|]. split; [exact R|]. assert (P : put fs name text name = Some text) by (unfold put; now rewrite String.eqb_refl).
  split; [exact P|]. unfold from_file. rewrite C, P. reflexivity.
Qed.
Lemma unrecognised name fmt : ~ yaml_named name fmt -> ~ vasp_named name fmt -> forall g fs,
  write_file dump g (Some name) fmt fs = Raise UnboundLocalError /\ from_file load cbrt (Some name) fmt fs = Raise UnboundLocalError.
Proof.
  intros Y V g fs. destruct (choose_spec name fmt) as (_ & _ & C). pose proof (proj2 C (conj Y V)) as E.
  unfold write_file, from_file. rewrite E. auto.
Qed.
Lemma Forall2_length_eq A B (R : A -> B -> Prop) a b : Forall2 R a b -> length a = length b.
Proof. induction 1; cbn; congruence. Qed.
Lemma make_cell lat pos nums : pos <> [] -> length pos = length nums -> exists g', GeneralCell_new lat pos nums = Ok g' /\ lattice g' = lat /\
  Permutation (combine (positions g') (numbers g')) (combine pos nums).
Proof.
  intros N L. destruct (@C08_lemma lat pos nums N L) as (c & ks & r & E & LL & _). exists c. split; [exact E|]. split; [exact LL|]. eapply C08_pairs; eauto.
Qed.
Lemma mat_times_one (m : mat Qc) : vmap (vmap (fun x => x * Zc 1)%Qc) m = m.
Proof. assert (H : forall x, (x * Zc 1 = x)%Qc) by (intros x; exact (Qcmult_1_r x)). destruct m as [[a b c] [d e f] [g h i]]. unfold vmap. cbn [vx vy vz]. rewrite !H. reflexivity. Qed.

Lemma round_trip g name fmt fs : Forall supported (numbers g) -> length (positions g) = length (numbers g) ->
  (exists z, In z (numbers g) /\ z <> 0) -> name <> "" -> yaml_named name fmt \/ vasp_named name fmt ->
  (forall d, yaml_doc g = Ok d -> load (dump d) = Ok d) ->
  exists fs' g' atoms pos, write_file dump g (Some name) fmt fs = Ok (fs', "") /\ from_file load cbrt (Some name) fmt fs' = Ok g' /\
    mwithin tol (lattice g) (lattice g') /\
    (yaml_named name fmt -> atoms = combine (positions g) (numbers g)) /\
    (~ yaml_named name fmt -> grouped (combine (positions g) (numbers g)) atoms) /\
    Forall2 (vwithin tol) (map fst atoms) pos /\
    Permutation (combine (positions g') (numbers g')) (combine pos (map snd atoms)).
Proof.
  intros S L NZ NE YV LD. destruct (choose_spec name fmt) as (CY & CV & CN).
  assert (WF : forall f text, choose name fmt = Some f -> render dump f g = Ok text ->
    write_file dump g (Some name) fmt fs = Ok (put fs name text, "") /\ from_file load cbrt (Some name) fmt (put fs name text) = read_text load cbrt f text).
  { intros f text C R. unfold write_file, from_file. rewrite C, R. cbn [bind]. destruct (String.eqb_spec name ""); [congruence|].
    split; [reflexivity|]. unfold put. rewrite String.eqb_refl. reflexivity. }
  destruct (choose name fmt) as [[|]|] eqn:C.
  - assert (Y : yaml_named name fmt) by now apply CY. destruct (C55_lemma S) as (d & lat & pos & E & _ & R & M & P).
    destruct (WF Fyaml (dump d) eq_refl) as [W1 W2]. { cbn. rewrite E. reflexivity. }
    assert (LP : length pos = length (numbers g)) by (rewrite <- (Forall2_length_eq P); exact L).
    assert (NEp : pos <> []). { intros ->. destruct NZ as (z & I & _). destruct (numbers g); [destruct I|discriminate]. }
    destruct (make_cell lat NEp LP) as (g' & G & GL & GP).
    exists (put fs name (dump d)), g', (combine (positions g) (numbers g)), pos. split; [exact W1|]. split.
    { rewrite W2. cbn [read_text]. rewrite (LD _ E). cbn [bind]. unfold yaml_get_cell. rewrite R. exact G. }
    rewrite GL. split; [exact M|]. split; [auto|]. split; [tauto|]. rewrite (combine_fst L), (combine_snd L). split; [exact P|exact GP].
  - destruct (proj1 CV eq_refl) as [NY V]. destruct (VaspOutput_new_ok 1 S L) as (names & zs & syms & E & W).
    destruct (C52_lemma cbrt true S L (zoom:=1) ltac:(lia) NZ E) as (lat & atoms & pos & R & M & G & P). rewrite mat_times_one in R.
    destruct (WF Fvasp (get_string (mkVO g names 1) true) eq_refl) as [W1 W2]. { cbn [render]. rewrite E. reflexivity. }
    assert (LP : length pos = length (map snd atoms)) by (rewrite <- (Forall2_length_eq P), !map_length; reflexivity).
    assert (NEp : pos <> []).
    { intros ->. destruct NZ as (z & I & N). destruct G as [_ G]. specialize (G z). assert (A : atoms = []) by (destruct atoms; [reflexivity|discriminate]).
      subst atoms. cbn in G. destruct (Z.eqb_spec z 0); [congruence|].
      assert (X : In z (map snd (combine (positions g) (numbers g)))) by (rewrite (combine_snd L); exact I).
      apply in_map_iff in X. destruct X as (a & A & X). assert (Y : In a (filter (fun a => snd a =? z) (combine (positions g) (numbers g)))).
      { apply filter_In. split; [exact X|]. now apply Z.eqb_eq. } rewrite <- G in Y. destruct Y. }
    destruct (make_cell lat NEp LP) as (g' & GG & GL & GP).
    exists (put fs name (get_string (mkVO g names 1) true)), g', atoms, pos. split; [exact W1|]. split.
    { rewrite W2. cbn [read_text]. unfold vasp_get_cell. rewrite R. cbn [bind]. exact GG. }
    rewrite GL. split; [exact M|]. split; [tauto|]. split; [auto|]. split; [exact P|exact GP].
  - exfalso. destruct (proj1 CN eq_refl). tauto.
Qed.
End Files.
