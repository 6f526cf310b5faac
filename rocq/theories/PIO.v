(** Properties C51 - C56, C68, C69: reading and writing files. *)
From Coq Require Import String Ascii Sorted.
From Verif Require Import Base BaseQ MElement SElement MGeneralCell SGeneralCell MText MIO SIO LIO3 LIO4 LIO5 LIO6.
Open Scope Z_scope.
Notation length := List.length.

Definition q (n : Z) (d : positive) : Qc := Q2Qc (n # d).
Definition ex_lat : mat Qc := V3 (V3 (q 3 1) 0%Qc 0%Qc) (V3 (q (-3) 2) (q 25981 10000) 0%Qc) (V3 0%Qc (q (-1) 3) (q 5 1)).
Definition ex_pos : list (vec Qc) :=
  [V3 0%Qc 0%Qc 0%Qc; V3 (q 1 3) (q 2 3) (q 1 2); V3 (q 2 3) (q (-1) 3) (q 1 7); V3 (q 5 4) 0%Qc (q 1 100000000)].
Definition ex_cell : gcell := mkG ex_lat ex_pos [26; 0; 5; 26] (ex_lat, ex_pos, [26; 0; 5; 26]) 4.
Lemma ex_supported : Forall supported (numbers ex_cell).
Proof. repeat constructor; unfold supported; lia. Qed.
Lemma ex_nonvacant : exists z, In z (numbers ex_cell) /\ z <> 0.
Proof. exists 5. split; [cbn; auto|discriminate]. Qed.

Lemma list_app_ascii a b : (list_ascii_of_string a ++ list_ascii_of_string b)%list = list_ascii_of_string (String.append a b).
Proof. induction a as [|c a IH]; cbn; [reflexivity|]. now rewrite IH. Qed.
(** equality of results by computation *)
Definition veqb (a b : vec Qc) : bool := Qceqb (vx a) (vx b) && Qceqb (vy a) (vy b) && Qceqb (vz a) (vz b).
Lemma veqb_eq a b : veqb a b = true -> a = b.
Proof.
  unfold veqb. rewrite !andb_true_iff. intros [[H1 H2] H3]. apply LQ.Qceqb_eq in H1, H2, H3. destruct a, b. cbn in *. congruence.
Qed.
Fixpoint leqb (a b : list (vec Qc)) : bool :=
  match a, b with [], [] => true | x :: a, y :: b => veqb x y && leqb a b | _, _ => false end.
Lemma leqb_eq : forall a b, leqb a b = true -> a = b.
Proof.
  induction a as [|x a IH]; intros [|y b] H; try discriminate; [reflexivity|]. cbn in H. apply andb_true_iff in H. destruct H as [H1 H2].
  f_equal; [now apply veqb_eq|now apply IH].
Qed.
Definition same (r : res (mat Qc * list (vec Qc) * list Z)) (lat : mat Qc) (pos : list (vec Qc)) (nums : list Z) : Prop :=
  match r with
  | Ok (l, p, n) => leqb [vx l; vy l; vz l] [vx lat; vy lat; vz lat] && leqb p pos = true /\ n = nums
  | Raise _ => False
  end.
Lemma same_eq r lat pos nums : same r lat pos nums -> r = Ok (lat, pos, nums).
Proof.
  unfold same. destruct r as [[[l p] n]|]; [|tauto]. rewrite andb_true_iff. intros ((H1 & H2) & ->). apply leqb_eq in H1, H2. subst.
  destruct l, lat. cbn in H1. injection H1 as -> -> ->. reflexivity.
Qed.

(** C51: the text written is a POSCAR of the cell, for both modes and every scale. *)
Theorem C51_text_is_poscar : forall g zoom (direct : bool),
  Forall supported (numbers g) -> length (positions g) = length (numbers g) ->
  exists v, VaspOutput_new g zoom = Ok v /\
    poscar (lattice g) (positions g) (numbers g) (str_int zoom) (if direct then "direct"%string else "cartesian"%string) (get_string v direct).
Proof. exact C51_lemma. Qed.
Print Assumptions C51_text_is_poscar.

Theorem C51_number_of_lines : forall g zoom direct v,
  Forall supported (numbers g) -> length (positions g) = length (numbers g) ->
  VaspOutput_new g zoom = Ok v ->
  newlines (get_string v direct) = (8 + length (filter (fun z => negb (z =? 0)%Z) (numbers g)))%nat.
Proof. exact C51_lines. Qed.
Print Assumptions C51_number_of_lines.

Example C51_ex :
  match VaspOutput_new ex_cell 1 with
  | Ok v => get_string v true = text_of_lines
      ["B1Fe2"; "1"; "  3.000000   0.000000   0.000000"; " -1.500000   2.598100   0.000000"; "  0.000000  -0.333333   5.000000";
       "B Fe"; "1 2"; "direct"; "  0.666667  -0.333333   0.142857 B"; "  0.000000   0.000000   0.000000 Fe"; "  1.250000   0.000000   0.000000 Fe"]%string
  | Raise _ => False end.
Proof. vm_compute. reflexivity. Qed.

(** C52: reading back what was written (scale 1; C69 for other scales). *)
Theorem C52_round_trip : forall cbrt g direct v,
  Forall supported (numbers g) -> length (positions g) = length (numbers g) ->
  (exists z, In z (numbers g) /\ z <> 0) -> VaspOutput_new g 1 = Ok v ->
  exists lat atoms pos, from_string cbrt (get_string v direct) = Ok (lat, pos, map snd atoms) /\
    mwithin (Q2Qc (505 # 10000000)) (lattice g) lat /\
    grouped (combine (positions g) (numbers g)) atoms /\
    Forall2 (vwithin (Q2Qc (505 # 10000000))) (map fst atoms) pos.
Proof.
  intros cbrt g direct v S L N E. destruct (C52_lemma cbrt direct S L (zoom:=1) ltac:(lia) N E) as (lat & atoms & pos & R & H).
  rewrite mat_times_one in R. eauto.
Qed.
Print Assumptions C52_round_trip.

(** The result, read as a function of the grouping, is unique. *)
Theorem C52_grouping_unique : forall orig a b, grouped orig a -> grouped orig b -> a = b.
Proof. exact grouped_unique. Qed.
Print Assumptions C52_grouping_unique.

Example C52_ex :
  match VaspOutput_new ex_cell 1 with
  | Ok v => match from_string (fun x => x) (get_string v true) with
            | Ok (lat, pos, nums) => nums = [5; 26; 26] /\ map (fun p => map this [vx p; vy p; vz p]) pos =
                [[6667 # 10000; -3333 # 10000; 1429 # 10000]; [0; 0; 0]; [5 # 4; 0; 0]]%Q
            | Raise _ => False end
  | Raise _ => False end.
Proof. vm_compute. split; reflexivity. Qed.

(** C53: nothing but vacancies. *)
Theorem C53_vacancies_only : forall cbrt g direct v,
  Forall supported (numbers g) -> length (positions g) = length (numbers g) ->
  (forall z, In z (numbers g) -> z = 0) -> VaspOutput_new g 1 = Ok v ->
  from_string cbrt (get_string v direct) = Raise ValueError.
Proof. exact C53_lemma. Qed.
Print Assumptions C53_vacancies_only.

Theorem C53_refuted : exists g v, Forall supported (numbers g) /\ length (positions g) = length (numbers g) /\ positions g <> [] /\
  VaspOutput_new g 1 = Ok v /\ forall cbrt, from_string cbrt (get_string v true) = Raise ValueError.
Proof.
  exists (mkG ex_lat [V3 0 0 0; V3 (q 1 2) 0 0]%Qc [0; 0] (ex_lat, [V3 0 0 0; V3 (q 1 2) 0 0]%Qc, [0; 0]) 2).
  destruct (VaspOutput_new _ 1) as [v|e] eqn:E; [|discriminate E]. exists v.
  assert (S : Forall supported [0; 0]) by (repeat constructor; unfold supported; lia).
  split; [exact S|]. split; [reflexivity|]. split; [discriminate|]. split; [reflexivity|]. intros cbrt.
  apply (C53_vacancies_only cbrt _ true v) in E; [exact E|exact S|reflexivity|]. cbn. intuition.
Qed.
Print Assumptions C53_refuted.

(** C54: the mode line has no influence on what is read. *)
Theorem C54_mode_line_ignored : forall cbrt pre m m' rest,
  Forall one_line pre -> inked 7 pre -> one_line m -> has_ink m -> one_line m' -> has_ink m' ->
  from_string cbrt (String.append (text_of_lines (pre ++ [m])) rest) = from_string cbrt (String.append (text_of_lines (pre ++ [m'])) rest).
Proof. exact C54_lemma. Qed.
Print Assumptions C54_mode_line_ignored.

Definition ex_pre : list string := ["B1"; "1"; "2 0 0"; "0 2 0"; "0 0 2"; "B"; "1"]%string.
Theorem C54_refuted : exists pre rest lat p nums,
  from_string (fun x => x) (String.append (text_of_lines (pre ++ ["cartesian"%string])) rest) = Ok (lat, [p], nums) /\
  row_line true rest p /\ cartesian_of lat p <> p.
Proof.
  exists ex_pre, "1.0 0.5 0.0"%string,
    (V3 (V3 (q 2 1) 0 0) (V3 0 (q 2 1) 0) (V3 0 0 (q 2 1)))%Qc, (V3 1 (q 1 2) 0)%Qc, [5].
  split; [apply same_eq; vm_compute; split; reflexivity|]. split.
  - exists "1.0"%string, "0.5"%string, "0.0"%string, []. split.
    + assert (W : forall b w r ws, whites b -> word w -> (r = ""%string \/ exists c r', r = String c r' /\ white c) -> fields ws r ->
        fields (w :: ws) (String.append b (String.append w r))) by (intros; constructor; auto).
      assert (C : forall s, (forall c, In c (list_ascii_of_string s) -> white c) -> whites s).
      { intros s H a c b ->. apply H. rewrite <- list_app_ascii. apply in_app_iff. right. now left. }
      assert (D : forall s, s <> ""%string -> (forall c, In c (list_ascii_of_string s) -> ~ white c) -> word s).
      { intros s N H. split; [exact N|]. intros a c b ->. apply H. rewrite <- list_app_ascii. apply in_app_iff. right. now left. }
      assert (SP : white " ") by (vm_compute; auto 20).
      assert (W1 : word "1.0" /\ word "0.5" /\ word "0.0").
      { repeat split; try discriminate; apply D; try discriminate; cbn; intros c H; repeat (destruct H as [<-|H]); try contradiction; vm_compute; intuition discriminate. }
      destruct W1 as (W1 & W2 & W3).
      refine (W "" "1.0" " 0.5 0.0" _ _ W1 _ _)%string; [apply C; cbn; tauto|right; eauto|].
      refine (W " " "0.5" " 0.0" _ _ W2 _ _)%string; [apply C; cbn; intuition (subst; auto)|right; eauto|].
      refine (W " " "0.0" "" _ _ W3 _ _)%string; [apply C; cbn; intuition (subst; auto)|now left|].
      constructor. apply C. cbn. tauto.
    + assert (N1 : forall c d, digit_of c = Some d -> numeral (String c "") d 1).
      { intros c d H. exact (num_snoc "" 0 0 c d num_nil H). }
      assert (P : forall a b x y z, digit_of a = Some x -> digit_of b = Some y -> z = (Zc x + Zc y / Zc (10 ^ Z.of_nat 1))%Qc ->
        decimal (String a (String "." (String b ""))) z).
      { intros a b x y z A B ->. exact (decimal_point "" (String a "") (String b "") x y 0 1 (or_introl eq_refl) (N1 _ _ A) (N1 _ _ B)). }
      split; [eapply P; [reflexivity|reflexivity|]|]. { apply Qc_is_canon. reflexivity. }
      split; [eapply P; [reflexivity|reflexivity|]|]. { apply Qc_is_canon. reflexivity. }
      split; [eapply P; [reflexivity|reflexivity|]|discriminate]. { apply Qc_is_canon. reflexivity. }
  - intros H. apply (f_equal (fun v => this (vx v))) in H. vm_compute in H. discriminate H.
Qed.
Print Assumptions C54_refuted.

Example C54_ex : Forall one_line ex_pre /\ inked 7 ex_pre /\ has_ink "cartesian" /\ ~ has_ink "   ".
Proof.
  assert (K : forall s, (forall c, In c (list_ascii_of_string s) -> c <> "010"%char) -> one_line s).
  { intros s H a b ->. apply (H "010"%char); [|reflexivity]. rewrite <- list_app_ascii. apply in_app_iff. right. now left. }
  split.
  - repeat constructor; apply K; cbn; intros c H; repeat (destruct H as [<-|H]); try contradiction; discriminate.
  - split; [|split].
    + unfold ex_pre. repeat (constructor; [apply ink_iff; vm_compute; reflexivity|]). constructor.
    + apply ink_iff; vm_compute; reflexivity.
    + rewrite ink_iff. vm_compute. discriminate.
Qed.

(** C55: YAML. *)
Theorem C55_yaml_round_trip : forall g, Forall supported (numbers g) ->
  exists d lat pos, yaml_doc g = Ok d /\ formula (numbers g) (y_comment d) /\
    yaml_read d = (lat, pos, numbers g) /\
    mwithin (Q2Qc (505 # 10000000)) (lattice g) lat /\ Forall2 (vwithin (Q2Qc (505 # 10000000))) (positions g) pos.
Proof. exact C55_lemma. Qed.
Print Assumptions C55_yaml_round_trip.

Example C55_ex : match yaml_doc ex_cell with
  | Ok d => y_comment d = "B1Fe2"%string /\ snd (yaml_read d) = [26; 0; 5; 26] /\
            map (fun p => this (vx p)) (snd (fst (yaml_read d))) = [0; 3333 # 10000; 6667 # 10000; 5 # 4]%Q
  | Raise _ => False end.
Proof. vm_compute. repeat split. Qed.

(** C56 *)
Theorem C56_choice : forall name fmt,
  (choose name fmt = Some Fyaml <-> yaml_named name fmt) /\
  (choose name fmt = Some Fvasp <-> ~ yaml_named name fmt /\ vasp_named name fmt) /\
  (choose name fmt = None <-> ~ yaml_named name fmt /\ ~ vasp_named name fmt).
Proof. exact choose_spec. Qed.
Print Assumptions C56_choice.

Theorem C56_unrecognised : forall dump load cbrt name fmt, ~ yaml_named name fmt -> ~ vasp_named name fmt -> forall g fs,
  write_file dump g (Some name) fmt fs = Raise UnboundLocalError /\ from_file load cbrt (Some name) fmt fs = Raise UnboundLocalError.
Proof. exact unrecognised. Qed.
Print Assumptions C56_unrecognised.

Theorem C56_matching_reader : forall dump load cbrt g name fmt fs fs' out, name <> ""%string ->
  write_file dump g (Some name) fmt fs = Ok (fs', out) ->
  out = ""%string /\ (forall n, n <> name -> fs' n = fs n) /\
  exists f text, choose name fmt = Some f /\ render dump f g = Ok text /\ fs' name = Some text /\
    from_file load cbrt (Some name) fmt fs' = read_text load cbrt f text.
Proof. exact write_read. Qed.
Print Assumptions C56_matching_reader.

Theorem C56_written_files_are_read_back : forall dump load cbrt g name fmt fs,
  Forall supported (numbers g) -> length (positions g) = length (numbers g) ->
  (exists z, In z (numbers g) /\ z <> 0) -> name <> ""%string -> yaml_named name fmt \/ vasp_named name fmt ->
  (forall d, yaml_doc g = Ok d -> load (dump d) = Ok d) ->
  exists fs' g' atoms pos, write_file dump g (Some name) fmt fs = Ok (fs', ""%string) /\ from_file load cbrt (Some name) fmt fs' = Ok g' /\
    mwithin (Q2Qc (505 # 10000000)) (lattice g) (lattice g') /\
    (yaml_named name fmt -> atoms = combine (positions g) (numbers g)) /\
    (~ yaml_named name fmt -> grouped (combine (positions g) (numbers g)) atoms) /\
    Forall2 (vwithin (Q2Qc (505 # 10000000))) (map fst atoms) pos /\
    Permutation (combine (positions g') (numbers g')) (combine pos (map snd atoms)).
Proof. exact round_trip. Qed.
Print Assumptions C56_written_files_are_read_back.

Example C56_ex : choose "out/B3.YAML.bak" (Some "vasp"%string) = Some Fyaml /\ choose "x.Vasp" None = Some Fvasp /\
  choose "POSCAR_1" None = Some Fvasp /\ choose "poscar_1" None = None /\ choose "x.vasp.gz" None = None /\ choose "x" (Some "VASP"%string) = Some Fvasp.
Proof. vm_compute. repeat split. Qed.
Example C56_ex_round_trip : exists (dump : ydoc -> string) (load : string -> res ydoc), (forall d, yaml_doc ex_cell = Ok d -> load (dump d) = Ok d) /\
  yaml_named "a.yaml" None /\ ~ yaml_named "a.vasp" None /\ vasp_named "a.vasp" None.
Proof.
  exists (fun _ => ""%string), (fun _ => yaml_doc ex_cell). split; [auto|].
  destruct (C56_choice "a.yaml" None) as (A & _). destruct (C56_choice "a.vasp" None) as (_ & B & _).
  split; [apply A; vm_compute; reflexivity|]. apply B. vm_compute. reflexivity.
Qed.

(** C68: meaning of any well-formed POSCAR text. *)
Theorem C68_reading : forall cbrt content z lat zs ns pos, poscar_text content z lat zs ns pos ->
  exists lat4 lat' pos4 nums, from_string cbrt content = Ok (lat', pos4, nums) /\
    vrounded 4 (vx lat) (vx lat4) /\ vrounded 4 (vy lat) (vy lat4) /\ vrounded 4 (vz lat) (vz lat4) /\
    Forall2 (vrounded 4) pos pos4 /\
    nums = flat_map (fun zn => repeat (fst zn) (snd zn)) (combine zs ns) /\
    ((0 <= z)%Qc -> scaled z lat4 lat') /\
    ((z < 0)%Qc -> (forall x, (0 < x)%Qc -> x = (- z / volume lat4)%Qc -> (cbrt x * cbrt x * cbrt x = x)%Qc) -> volume lat4 <> 0%Qc ->
       exists f, (0 < f)%Qc /\ scaled f lat4 lat' /\ volume lat' = (- z)%Qc).
Proof. exact C68_lemma. Qed.
Print Assumptions C68_reading.

(** C69: the scale factor is written without dividing the lattice by it. *)
Theorem C69_scale_multiplies : forall cbrt g zoom direct v,
  Forall supported (numbers g) -> length (positions g) = length (numbers g) -> 0 <= zoom ->
  (exists z, In z (numbers g) /\ z <> 0) -> VaspOutput_new g zoom = Ok v ->
  exists lat atoms pos, from_string cbrt (get_string v direct) = Ok (vmap (vmap (fun x => x * Zc zoom)%Qc) lat, pos, map snd atoms) /\
    mwithin (Q2Qc (505 # 10000000)) (lattice g) lat /\ grouped (combine (positions g) (numbers g)) atoms /\
    Forall2 (vwithin (Q2Qc (505 # 10000000))) (map fst atoms) pos.
Proof. exact C52_lemma. Qed.
Print Assumptions C69_scale_multiplies.

Theorem C69_refuted : exists g v lat pos nums, VaspOutput_new g 2 = Ok v /\ from_string (fun x => x) (get_string v true) = Ok (lat, pos, nums) /\
  Forall supported (numbers g) /\ length (positions g) = length (numbers g) /\ (exists z, In z (numbers g) /\ z <> 0) /\
  volume lat = (Zc 8 * volume (lattice g))%Qc /\ volume lat <> volume (lattice g).
Proof.
  set (L := (V3 (V3 1 0 0) (V3 0 1 0) (V3 0 0 1))%Qc). exists (mkG L [V3 0 0 0]%Qc [5] (L, [V3 0 0 0]%Qc, [5]) 1).
  destruct (VaspOutput_new _ 2) as [v|e] eqn:E; [|discriminate E]. exists v.
  exists (vmap (vmap (fun x => x * Zc 2)%Qc) L), [V3 0 0 0]%Qc, [5]. split; [reflexivity|].
  injection E as <-. split; [apply same_eq; vm_compute; split; reflexivity|]. split; [repeat constructor; unfold supported; lia|]. split; [reflexivity|].
  split; [exists 5; split; [now left|discriminate]|]. split; [apply Qc_is_canon; vm_compute; reflexivity|].
  intros H. apply (f_equal this) in H. vm_compute in H. discriminate H.
Qed.
Print Assumptions C69_refuted.

(** Negative scale factor: two lattice cells of volume 1 scaled to volume 8. *)
Example C68_ex : match from_string (fun _ => Zc 2) (text_of_lines ["c"; "-8"; " 1 0 0"; "0 1 0"; ""; "0 0 1.0"; "Fe  B"; "1 2"; "d"; "0 0 0"; ".5 0 0"; "0 -0.00005 0.12345 T T T"]%string) with
  | Ok (lat, pos, nums) => this (volume lat) = 8%Q /\ nums = [26; 5; 5] /\ map (fun p => map this [vx p; vy p; vz p]) pos = [[0; 0; 0]; [1 # 2; 0; 0]; [0; 0; 617 # 5000]]%Q
  | Raise _ => False end.
Proof. vm_compute. repeat split. Qed.

Lemma whites_ok s : LText.allc is_space s = true -> whites s.
Proof.
  intros H a c b ->. apply is_space_white. rewrite LText.allc_app in H. apply andb_true_iff in H. destruct H as [_ H]. cbn in H. now apply andb_true_iff in H.
Qed.
Lemma word_ok s : LText.is_word s -> word s.
Proof.
  intros [H N]. split; [exact N|]. intros a c b -> W. apply is_space_white in W. rewrite LText.allc_app in H. apply andb_true_iff in H.
  destruct H as [_ H]. cbn in H. unfold LText.noblank in H. rewrite W in H. discriminate.
Qed.
Lemma digit_decimal c d : digit_of c = Some d -> decimal (String c "") (Zc d) /\ numeral (String c "") d 1 /\ word (String c "").
Proof.
  intros H. assert (N : numeral (String c "") d 1) by exact (num_snoc "" 0 0 c d num_nil H).
  split; [exact (decimal_int "" (String c "") d 0 (or_introl eq_refl) N)|]. split; [exact N|]. apply word_ok. split; [|discriminate].
  cbn. rewrite andb_true_r. apply LText.digit_not_space. unfold LText.is_digit_c. rewrite <- LIO.digit_of_val, H. reflexivity.
Qed.
Lemma one_word c d b : digit_of c = Some d -> whites b -> (b = ""%string \/ exists x r, b = String x r /\ white x) -> forall ws, fields ws b -> fields (String c "" :: ws)%string (String c b).
Proof.
  intros H B R ws F. exact (fields_cons "" (String c "") ws b (whites_ok "" eq_refl) (proj2 (proj2 (digit_decimal c d H))) R F).
Qed.
Lemma digit_row more a b c x y z : digit_of a = Some x -> digit_of b = Some y -> digit_of c = Some z ->
  row_line more (String a (String " " (String b (String " " (String c ""))))) (V3 (Zc x) (Zc y) (Zc z)).
Proof.
  intros A B C. destruct (digit_decimal _ _ A) as (DA & _ & WA), (digit_decimal _ _ B) as (DB & _ & WB), (digit_decimal _ _ C) as (DC & _ & WC).
  exists (String a ""), (String b ""), (String c ""), []. split; [|auto].
  assert (SP : white " ") by (vm_compute; auto 20).
  refine (fields_cons "" (String a "") _ (String " " (String b (String " " (String c "")))) (whites_ok "" eq_refl) WA _ _); [right; eauto|].
  refine (fields_cons " " (String b "") _ (String " " (String c "")) (whites_ok " " eq_refl) WB _ _); [right; eauto|].
  refine (fields_cons " " (String c "") _ "" (whites_ok " " eq_refl) WC _ _); [now left|]. constructor. apply whites_ok. reflexivity.
Qed.
Definition ex_file : list string := ["c"; "-8"; "1 0 0"; "0 1 0"; "  "; "0 0 1"; "B"; "2"; "direct"; "0 0 0"; "2 0 1"]%string.
Example C68_ex_hyp : poscar_text (String.concat (String "010" "") ex_file) (- Zc 8)%Qc
  (V3 (V3 (Zc 1) (Zc 0) (Zc 0)) (V3 (Zc 0) (Zc 1) (Zc 0)) (V3 (Zc 0) (Zc 0) (Zc 1))) [5] [2%nat]
  [V3 (Zc 0) (Zc 0) (Zc 0); V3 (Zc 2) (Zc 0) (Zc 1)].
Proof.
  exists ex_file. do 11 eexists. split; [reflexivity|]. split.
  { assert (K : forall s, (forall c, In c (list_ascii_of_string s) -> c <> "010"%char) -> one_line s).
    { intros s H a b ->. apply (H "010"%char); [|reflexivity]. rewrite <- list_app_ascii. apply in_app_iff. right. now left. }
    unfold ex_file. repeat constructor; apply K; cbn; intros c H; repeat (destruct H as [<-|H]); try contradiction; discriminate. }
  split.
  { unfold ex_file. do 4 (apply kept_yes; [apply ink_iff; vm_compute; reflexivity|]).
    apply kept_no; [rewrite ink_iff; vm_compute; discriminate|].
    do 6 (apply kept_yes; [apply ink_iff; vm_compute; reflexivity|]). constructor. }
  split. { exists "-8"%string. split.
    - refine (fields_cons "" "-8" [] "" (whites_ok "" eq_refl) _ (or_introl eq_refl) _); [apply word_ok; split; [reflexivity|discriminate]|].
      constructor. now apply whites_ok.
    - refine (decimal_int "-" "8" 8 0 (or_intror eq_refl) _). exact (num_snoc "" 0 0 "8" 8 num_nil eq_refl). }
  split; [apply digit_row; reflexivity|]. split; [apply digit_row; reflexivity|]. split; [apply digit_row; reflexivity|].
  split. { refine (fields_cons "" "B" [] "" (whites_ok "" eq_refl) _ (or_introl eq_refl) _); [apply word_ok; split; [reflexivity|discriminate]|]. constructor. now apply whites_ok. }
  split. { constructor; [|constructor]. left. split; [lia|reflexivity]. }
  split. { refine (fields_cons "" "2" [] "" (whites_ok "" eq_refl) _ (or_introl eq_refl) _); [apply word_ok; split; [reflexivity|discriminate]|]. constructor. now apply whites_ok. }
  split. { constructor; [|constructor]. exists 0%nat. exact (num_snoc "" 0 0 "2" 2 num_nil eq_refl). }
  split; [reflexivity|]. constructor; [apply digit_row; reflexivity|]. constructor; [apply digit_row; reflexivity|constructor].
Qed.
