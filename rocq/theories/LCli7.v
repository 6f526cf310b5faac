(** suplat, supcell, pcell, atclear, perturb. *)
From Coq Require Import String Ascii.
From Verif Require Import Base BaseQ LBase SElement MElement LElement MGeneralCell SGeneralCell LGeneralCell MHnf MRestrict MSogen MText LText MIO SIO LIO LIO6
  MModCell SModCell LModCell LModCell2 LModCell3 LModCell4 LModCell5 PModCell SSubst SCli MCli LCli LCli2 SCliOne SCliApp.
Set Implicit Arguments.
Unset Strict Implicit.
Open Scope list_scope.
Open Scope nat_scope.
Notation length := List.length.
Notation "a +++ b" := (String.append a b) (at level 60, right associativity).

(** ** strings *)
Lemma snoc_app s c : snoc s c = s +++ String c EmptyString.
Proof. reflexivity. Qed.
Lemma has_slash_cons c s : has_slash (String c s) <-> c = "/"%char \/ has_slash s.
Proof.
  split.
  - intros (a & b & E). destruct a as [|d a]; cbn in E; injection E as -> E; [now left|right]. exists a, b. exact E.
  - intros [->|(a & b & ->)]; [exists ""%string, s; reflexivity|exists (String c a), b; reflexivity].
Qed.
Lemma has_slash_nil : ~ has_slash "".
Proof. intros (a & b & E). destruct a; discriminate. Qed.
Lemma has_slash_app a b : has_slash (a +++ b) <-> has_slash a \/ has_slash b.
Proof.
  induction a as [|c a IH]; cbn; [split; [auto|intros [H|H]; [now apply has_slash_nil in H|exact H]]|].
  rewrite !has_slash_cons, IH. tauto.
Qed.
Lemma basename_from_spec s : forall cur, ~ has_slash cur -> last_component (cur +++ s) (basename_from cur s).
Proof.
  induction s as [|c s IH]; intros cur N; cbn [basename_from].
  - rewrite app_nil_s. split; [exact N|now left].
  - destruct (Ascii.eqb_spec c "/") as [->|NE].
    + destruct (IH ""%string has_slash_nil) as [A [B|(d & B)]].
      * split; [exact A|right]. exists cur. cbn in B. rewrite <- B. reflexivity.
      * split; [exact A|right]. cbn in B. exists (cur +++ "/" +++ d). rewrite app_assoc_s. cbn. rewrite B at 1. reflexivity.
    + replace (cur +++ String c s) with (snoc cur c +++ s) by (rewrite snoc_app, app_assoc_s; reflexivity).
      apply IH. rewrite snoc_app, has_slash_app, has_slash_cons. intros [H|[H|H]]; [auto|auto|now apply has_slash_nil in H].
Qed.
Lemma basename_spec s : last_component s (basename s).
Proof. exact (basename_from_spec s has_slash_nil). Qed.

Lemma has_dot_cons c s : has_dot (String c s) <-> c = "."%char \/ has_dot s.
Proof.
  split.
  - intros (a & b & E). destruct a as [|d a]; cbn in E; injection E as -> E; [now left|right]. exists a, b. exact E.
  - intros [->|(a & b & ->)]; [exists ""%string, s; reflexivity|exists (String c a), b; reflexivity].
Qed.
Lemma before_dot_spec s : stem s (before_dot s).
Proof.
  induction s as [|c s [IH1 IH2]]; cbn [before_dot].
  - split; [|now left]. intros (a & b & E). destruct a; discriminate.
  - destruct (Ascii.eqb_spec c ".") as [->|NE].
    + split; [intros (a & b & E); destruct a; discriminate|right]. exists s. reflexivity.
    + split; [rewrite has_dot_cons; tauto|]. destruct IH2 as [E|(e & E)]; [left; rewrite E at 1; reflexivity|right]. exists e.
      rewrite E at 1. reflexivity.
Qed.

(** the names are determined *)
Lemma split_char (x : ascii) a b c d : (forall u v, b <> u +++ String x v) -> (forall u v, d <> u +++ String x v) ->
  a +++ String x b = c +++ String x d -> a = c /\ b = d.
Proof.
  intros HB HD. revert c. induction a as [|e a IH]; intros c E; destruct c as [|f c]; cbn in E.
  - injection E as E. auto.
  - injection E as -> E. exfalso. exact (HB c d E).
  - injection E as -> E. exfalso. exact (HD a b (eq_sym E)).
  - injection E as -> E. destruct (IH c E) as [-> ->]. auto.
Qed.
Lemma last_component_fun s b b' : last_component s b -> last_component s b' -> b = b'.
Proof.
  intros [N [E|(d & E)]] [N' [E'|(d' & E')]].
  - congruence.
  - exfalso. apply N. exists d', b'. congruence.
  - exfalso. apply N'. exists d, b. congruence.
  - assert (E2 : d +++ String "/" b = d' +++ String "/" b') by (rewrite E in E'; exact E').
    refine (proj2 (split_char _ _ E2)); intros u v ->; [apply N|apply N']; exists u, v; reflexivity.
Qed.
Lemma split_first (x : ascii) a b c d : (forall u v, a <> u +++ String x v) -> (forall u v, c <> u +++ String x v) ->
  a +++ String x b = c +++ String x d -> a = c.
Proof.
  revert c. induction a as [|e a IH]; intros c HA HC E; destruct c as [|f c]; cbn in E.
  - reflexivity.
  - injection E as -> E. exfalso. exact (HC ""%string c eq_refl).
  - injection E as -> E. exfalso. exact (HA ""%string a eq_refl).
  - injection E as -> E. f_equal. apply IH; [| |exact E]; intros u v K; [apply (HA (String f u) v)|apply (HC (String f u) v)]; cbn; congruence.
Qed.
Lemma stem_fun b s s' : stem b s -> stem b s' -> s = s'.
Proof.
  intros [N [E|(e & E)]] [N' [E'|(e' & E')]].
  - congruence.
  - exfalso. apply N. exists s', e'. congruence.
  - exfalso. apply N'. exists s, e. congruence.
  - assert (E2 : s +++ String "." e = s' +++ String "." e') by (rewrite E in E'; exact E').
    refine (split_first _ _ E2); intros u v ->; [apply N|apply N']; exists u, v; reflexivity.
Qed.

Lemma result_name_iff infile tag mode name : result_name infile tag mode name <-> name = out_name infile tag mode.
Proof.
  unfold out_name. split.
  - intros (b & st & HB & HS & ->). rewrite (last_component_fun HB (basename_spec infile)) in HS.
    rewrite (stem_fun HS (before_dot_spec _)). reflexivity.
  - intros ->. exists (basename infile), (before_dot (basename infile)). split; [apply basename_spec|]. split; [apply before_dot_spec|reflexivity].
Qed.

(** no ".yaml" in a name whose only dot is that of ".vasp" *)
Lemma has_dot_app a b : has_dot (a +++ b) <-> has_dot a \/ has_dot b.
Proof.
  induction a as [|c a IH]; cbn.
  - split; [auto|]. intros [(a & b' & E)|H]; [destruct a; discriminate|exact H].
  - rewrite !has_dot_cons, IH. tauto.
Qed.
Lemma one_dot x v a w : ~ has_dot x -> ~ has_dot v -> x +++ String "." v = a +++ String "." w -> w = v.
Proof.
  revert a. induction x as [|c x IH]; intros a NX NV E; destruct a as [|d a]; cbn in E.
  - injection E as E. auto.
  - injection E as <- E. exfalso. apply NV. exists a, w. exact E.
  - injection E as -> E. exfalso. apply NX. exists ""%string, x. reflexivity.
  - injection E as -> E. apply (IH a); auto. intros K. apply NX. apply has_dot_cons. now right.
Qed.
Lemma vasp_no_dot : ~ has_dot "vasp".
Proof. rewrite !has_dot_cons. intros [K|[K|[K|[K|(a & b & K)]]]]; try discriminate. destruct a; discriminate. Qed.
Lemma out_format st tag mode f : ~ has_dot st -> ~ has_dot tag -> mode_format mode f -> choose (st +++ tag +++ "." +++ mode) None = Some f.
Proof.
  intros NS NT M. destruct (choose_spec (st +++ tag +++ "." +++ mode) None) as (CY & CV & _).
  destruct M as [[-> ->]|[-> ->]].
  - apply CY. right. exists (st +++ tag), ".yaml"%string, ""%string. split; [repeat constructor|]. rewrite app_assoc_s. reflexivity.
  - apply CV. split.
    + intros [(x & [=] & _)|(a & p & b & SP & E)]. inversion SP as [|? c' ? p' V SP1]; subst.
      assert (c' = "."%char). { destruct V as [V|[V _]]; [exact V|]. cbn in V. lia. } subst c'.
      rewrite <- app_assoc_s in E. change ("." +++ "vasp") with (String "." "vasp") in E. cbn in E.
      apply one_dot in E; [|rewrite has_dot_app; tauto|exact vasp_no_dot].
      inversion SP1 as [|? c2 ? p2 V2 SP2]; subst. cbn in E. injection E as -> _.
      destruct V2 as [V2|[_ V2]]; [discriminate|]. cbn in V2. lia.
    + right. left. exists (st +++ tag), ".vasp"%string. split; [repeat constructor|]. rewrite app_assoc_s. reflexivity.
Qed.

Section One.
Variables (std : mat Qc * list (vec Qc) * list Z -> mat Qc * list (vec Qc) * list Z) (dump : ydoc -> string).

Lemma mode_format_fun m f f' : mode_format m f -> mode_format m f' -> f = f'.
Proof. intros [[-> ->]|[-> ->]] [[E ->]|[E ->]]; try discriminate; reflexivity. Qed.
Lemma out_name_nonempty infile tag mode : out_name infile tag mode <> ""%string.
Proof. unfold out_name. destruct (before_dot _); [|discriminate]. destruct tag; discriminate. Qed.
Lemma choose_out infile tag m f : ~ has_dot tag -> mode_format m f -> choose (out_name infile tag m) None = Some f.
Proof. intros N M. unfold out_name. apply out_format; [apply (before_dot_spec (basename infile))|exact N|exact M]. Qed.
Lemma announce_iff said x r : announce said x = Ok r <-> exists fs out, x = Ok (fs, out) /\ r = (fs, said +++ out).
Proof.
  unfold announce. rewrite bind_ok. split.
  - intros ([fs out] & E & [= <-]). eauto.
  - intros (fs & out & E & ->). exists (fs, out). auto.
Qed.
Lemma app_empty s : s +++ "" = s.
Proof. induction s as [|c s IH]; [reflexivity|]. cbn. now rewrite IH. Qed.
Lemma deliver_spec said infile tag m c fs r : ~ has_dot tag -> known_mode m ->
  deliver dump said infile tag m c fs = Ok r <-> delivered dump said infile tag m c fs r.
Proof.
  intros N M. unfold deliver. rewrite announce_iff. destruct m as [m|]; cbn [delivered known_mode] in *.
  - destruct M as (f & M). pose proof (choose_out infile N M) as C. split.
    + intros (fs1 & out & E & ->). rewrite write_named in E by apply out_name_nonempty. destruct E as (f' & t & E & R & [= -> ->]). rewrite C in E. injection E as <-.
      exists (out_name infile tag m), f, t. split; [now apply result_name_iff|]. rewrite app_empty. auto.
    + intros (name & f' & t & RN & M' & R & ->). apply result_name_iff in RN. subst name. rewrite <- (mode_format_fun M M') in R.
      exists (put fs (out_name infile tag m) t), ""%string. rewrite app_empty. split; [|reflexivity]. apply write_named; [apply out_name_nonempty|eauto].
  - unfold write_file. cbn. change (String.eqb "" "") with true. cbn [bind]. split.
    + intros (fs1 & out & E & ->). rewrite bind_ok in E. destruct E as (t & E & [= <- <-]). eauto.
    + intros (t & E & ->). exists fs, (t +++ String "010" EmptyString). split; [|reflexivity]. apply bind_ok. exists t. split; [exact E|reflexivity].
Qed.
Lemma mode_vasp : known_mode (Some "vasp"%string).
Proof. exists Fvasp. right. auto. Qed.
Lemma tag_dot a b c d e : a <> "."%char -> b <> "."%char -> c <> "."%char -> d <> "."%char -> e <> "."%char ->
  ~ has_dot (String a (String b (String c (String d (String e EmptyString))))).
Proof. intros. rewrite !has_dot_cons. intros [K|[K|[K|[K|[K|(x & y & K)]]]]]; try congruence. destruct x; discriminate. Qed.
Lemma tag_aclr : ~ has_dot "_ACLR".
Proof. apply tag_dot; discriminate. Qed.
Lemma tag_purb : ~ has_dot "_PURB".
Proof. apply tag_dot; discriminate. Qed.
Lemma tag_supc : ~ has_dot "_SUPC".
Proof. apply tag_dot; discriminate. Qed.
Lemma tag_primc : ~ has_dot "_PRIMC".
Proof. rewrite has_dot_cons. intros [K|K]; [discriminate|]. revert K. apply tag_dot; discriminate. Qed.
Lemma deliver_total said infile tag m c fs : ~ has_dot tag -> known_mode m -> Forall supported (numbers c) -> exists r, deliver dump said infile tag m c fs = Ok r.
Proof.
  intros N M S. destruct m as [m|].
  - destruct M as (f & M). destruct (@render_total dump f c S) as (t & R). eexists. apply deliver_spec; [exact N|cbn; eauto|].
    exists (out_name infile tag m), f, t. split; [now apply result_name_iff|eauto].
  - destruct (@render_total dump Fvasp c S) as (t & R). eexists. apply deliver_spec; [exact N|exact I|]. exists t. eauto.
Qed.

(** ** suplat *)
Lemma prefix_app a p : String.prefix a p = true <-> exists x, p = a +++ x.
Proof.
  revert p. induction a as [|c a IH]; intros p.
  - destruct p; (split; [intros _; eexists; reflexivity|reflexivity]).
  - destruct p as [|d p]; [split; [discriminate|intros (x & [=])]|]. simpl. destruct (ascii_dec c d) as [->|N].
    + rewrite IH. split; intros (x & E); exists x; [cbn; congruence|cbn in E; congruence].
    + split; [discriminate|]. intros (x & [= E _]). congruence.
Qed.
Lemma prefix_below d p : String.prefix (d +++ "/") p = true <-> below d p.
Proof. rewrite prefix_app. unfold below. split; intros (x & ->); exists x; rewrite app_assoc_s; reflexivity. Qed.
Lemma emptied_rmtree (b : bool) d fs : emptied b d fs (if b then rmtree d fs else fs).
Proof.
  intros p. destruct b; [|split; [intros [[=] _]|auto]]. unfold rmtree. pose proof (prefix_below d p) as H.
  destruct (String.prefix (d +++ "/") p) eqn:E.
  - split; [auto|]. intros N. exfalso. apply N. split; [reflexivity|]. apply H. reflexivity.
  - split; [|auto]. intros [_ B]. apply H in B. discriminate.
Qed.

Notation shape := (get_shaped_cell std).
Lemma suplat_save_iff a d sfx c fs fs' : suplat_save std dump a d sfx c fs = Ok fs' <->
  exists w, suplat_file shape dump (s_outmode a) d (s_v a) sfx c w /\ fs' = put fs (fst w) (snd w).
Proof.
  unfold suplat_save. rewrite bind_ok. split.
  - intros (g & E1 & H). apply bind_ok in H as (g' & E2 & H). apply bind_ok in H as (r & E3 & [= <-]).
    apply write_named in E3; [|apply slash_nonempty]. destruct E3 as (f & t & E3 & E4 & ->).
    exists (slash d (suplat_name (s_v a) sfx (s_outmode a)), t). split; [|reflexivity]. exists g, g', f. cbn [fst snd]. auto.
  - intros ((p, t) & (g & g' & f & E1 & E2 & E3 & E4 & E5) & ->). cbn [fst snd] in *. exists g. split; [exact E1|].
    apply bind_ok. exists g'. split; [exact E2|]. apply bind_ok. exists (put fs p t, ""%string). split; [|reflexivity].
    apply write_named; [apply slash_nonempty|]. exists f, t. subst p. auto.
Qed.
Lemma selected_all A (W : A -> Prop) l k : (forall x, W x) -> selected W l k -> k = l.
Proof. intros H S. induction S; [reflexivity|congruence|contradiction (H x)]. Qed.

Lemma suplat_run_spec a cwd suffix fs ds :
  let d := (cwd +++ "/SUPLAT_" +++ s_comment a) in
  let r := suplat_run std dump a cwd suffix fs ds in
  exists fs0 done rest ws, emptied (ds d) d fs fs0 /\ s_hnfs a = done ++ rest /\
    indexed (fun k => suplat_file shape dump (s_outmode a) d (s_v a) (suffix k)) done ws /\
    after_writes fs0 ws (o_files r) /\ (o_exn r = None -> rest = []) /\ o_dirs r = mkdir ds d.
Proof.
  cbv zeta. unfold suplat_run. change (slash cwd ("SUPLAT_" +++ s_comment a)) with (cwd +++ "/SUPLAT_" +++ s_comment a).
  set (d := cwd +++ "/SUPLAT_" +++ s_comment a). set (fs0 := if ds d then rmtree d fs else fs).
  pose proof (@emit_spec slcell (fun _ => Ok true) (fun k => suplat_save std dump a d (suffix k))
    (fun k => suplat_file shape dump (s_outmode a) d (s_v a) (suffix k)) (@after_writes string string) (@aw_nil _ _) (aw_app string_dec)) as H.
  destruct (H) with (cells := s_hnfs a) (k := 0) (fs := fs0) as (done & rest & kept & ws & E1 & E2 & E3 & E4 & _ & E6).
  { intros k c f f' E. apply suplat_save_iff in E as (w & HW & ->). exists w. split; [exact HW|]. destruct w. apply aw_put. }
  exists fs0, done, rest, ws. split; [apply emptied_rmtree|]. split; [exact E1|].
  apply selected_all in E2; [|reflexivity]. subst kept. split; [exact E3|].
  destruct (emit _ _ _ _ _) as [[k' fs'] e]. cbn [o_files o_exn o_dirs fst snd] in *. auto.
Qed.
Lemma suplat_run_total a cwd suffix fs ds : s_outmode a = "vasp"%string \/ s_outmode a = "yaml"%string ->
  (forall c, In c (s_hnfs a) -> exists g g', to_general_cell c = Ok g /\ shape g = Ok g' /\ Forall supported (numbers g')) ->
  o_exn (suplat_run std dump a cwd suffix fs ds) = None.
Proof.
  intros M H. unfold suplat_run. set (d := slash _ _). set (fs0 := if ds d then _ else _).
  pose proof (@emit_total slcell (fun _ => Ok true) (fun k => suplat_save std dump a d (suffix k)) (s_hnfs a)) as T.
  specialize (T (fun _ _ => ex_intro _ true eq_refl)).
  assert (K : snd (emit (fun _ => Ok true) (fun k => suplat_save std dump a d (suffix k)) (s_hnfs a) 0 fs0) = None).
  { apply T. intros c k f I _. destruct (H c I) as (g & g' & E1 & E2 & S).
    destruct (ends_mode_choose (d +++ "/SUPLAT_" +++ str_int (s_v a) +++ "_" +++ suffix k) M) as (fm & EF).
    destruct (render_total dump fm S) as (t & ET). eexists. apply suplat_save_iff.
    exists (d +++ "/SUPLAT_" +++ str_int (s_v a) +++ "_" +++ suffix k +++ "." +++ s_outmode a, t). split; [|reflexivity].
    exists g, g', fm. cbn [fst snd]. repeat (split; [assumption||reflexivity|]). split; [|exact ET]. rewrite <- EF. f_equal. rewrite !app_assoc_s. reflexivity. }
  destruct (emit _ _ _ _ _) as [[k' fs'] e]. exact K.
Qed.
Lemma suplat_names shp mode d v suffix cells ws : indexed (fun k => suplat_file shp dump mode d v (suffix k)) cells ws ->
  map fst ws = map (fun k => d +++ "/SUPLAT_" +++ str_int v +++ "_" +++ suffix k +++ "." +++ mode) (seq 0 (length cells)).
Proof.
  intros [L H]. apply list_ext. intros k. rewrite !nth_error_map.
  destruct (nth_error ws k) as [w|] eqn:E.
  - assert (K : k < length cells) by (rewrite L; apply nth_error_Some; congruence).
    destruct (nth_error cells k) as [c|] eqn:E2; [|apply nth_error_Some in K; congruence].
    destruct (H k c w E2 E) as (g & g' & f & _ & _ & E3 & _).
    rewrite (nth_error_nth' _ 0) by (rewrite seq_length; exact K). rewrite seq_nth by exact K. cbn. rewrite E3. reflexivity.
  - apply nth_error_None in E. assert (K : nth_error (seq 0 (length cells)) k = None) by (apply nth_error_None; rewrite seq_length; lia).
    rewrite K. reflexivity.
Qed.
Lemma app_inj_r a b c : a +++ c = b +++ c -> a = b.
Proof.
  revert b. induction a as [|x a IH]; intros [|y b] E; cbn in E.
  - reflexivity.
  - exfalso. apply (f_equal String.length) in E. cbn in E. rewrite length_app_s in E. cbn in E. lia.
  - exfalso. apply (f_equal String.length) in E. cbn in E. rewrite length_app_s in E. cbn in E. lia.
  - injection E as -> E. f_equal. auto.
Qed.
Lemma suplat_distinct shp mode d v suffix cells ws : indexed (fun k => suplat_file shp dump mode d v (suffix k)) cells ws ->
  NoDup (map fst ws) <-> (forall i j, i < j < length cells -> suffix i <> suffix j).
Proof.
  intros H. rewrite (suplat_names H). set (nm := fun k => _).
  assert (NM : forall i j, nm i = nm j <-> suffix i = suffix j).
  { intros i j. unfold nm. split; [|now intros ->]. intros E. do 4 apply app_inj_l in E. now apply app_inj_r in E. }
  split.
  - intros N i j K E. apply (NoDup_nth _ (nm 0)) with (i := i) (j := j) in N; [lia| | |]; try (rewrite map_length, seq_length; lia).
    rewrite !map_nth, !seq_nth by lia. now apply NM.
  - intros K. apply (NoDup_nth _ (nm 0)). intros i j Hi Hj. rewrite map_length, seq_length in Hi, Hj.
    rewrite !map_nth, !seq_nth by lia. cbn. intros E. apply NM in E.
    destruct (Nat.lt_trichotomy i j) as [L|[L|L]]; [|exact L|]; exfalso; [apply (K i j)|apply (K j i)]; auto.
Qed.

(** ** atclear and perturb *)
Lemma without_map A B (f : A -> B) (P : B -> Prop) l l' : without (fun a => P (f a)) l l' -> without P (map f l) (map f l').
Proof. induction 1; cbn; [constructor|apply w_drop; auto|apply w_keep; auto]. Qed.
Definition pair_of (s : site) : vec Qc * Z := (s_pos s, sp_Z (s_ele s)).
Lemma start cell : positions cell <> [] -> length (positions cell) = length (numbers cell) -> Forall supported (numbers cell) ->
  exists hp c ss, from_gcell cell empty_heap = (hp, Ok c) /\ wf_heap hp /\ contains hp c (lattice cell) ss /\
    map pair_of ss = atoms cell /\ (exists rs, holds hp c rs /\ NoDup rs /\ length rs = length ss).
Proof.
  intros NE L S. unfold from_gcell.
  destruct (ModifiedCell_new_spec (lattice cell) (positions cell) (numbers cell) wf_empty) as [(_ & h' & E & F & C & LL & ND & _ & V)|(N & _)].
  - change h_empty with empty_heap in *. exists h', (length (h_cell empty_heap)), (map (site_at h') (refs h' (length (h_cell empty_heap)))). split; [exact E|].
    assert (W : wf_heap h') by apply F. split; [exact W|]. split; [apply contains_iff; [exact W|]; auto|]. split.
    + unfold atoms. revert V. generalize (combine (positions cell) (numbers cell)) (refs h' (length (h_cell empty_heap))). clear.
      intros l0 rs0 V. induction V as [|[p z] a l rs [V1 V2] V IH]; cbn; [reflexivity|]. rewrite IH. f_equal.
      unfold pair_of. cbn in V1, V2. apply from_num_inv in V2. destruct V2 as [_ V2]. congruence.
    + exists (refs h' (length (h_cell empty_heap))). split; [apply holds_iff; auto|]. split; [exact ND|]. now rewrite map_length.
  - exfalso. apply N. apply Forall_forall. intros [p z] I. apply in_combine_r in I. rewrite Forall_forall in S. apply S. exact I.
Qed.
Lemma atoms_length g : length (positions g) = length (numbers g) -> length (atoms g) = length (positions g).
Proof. intros L. unfold atoms. rewrite combine_length. lia. Qed.

Lemma atclear_spec cell infile cenele r ele refined s1 s2 fuel fs : positions cell <> [] -> length (positions cell) = length (numbers cell) ->
  Forall supported (numbers cell) -> Specie_new cenele = Ok s1 -> Specie_new ele = Ok s2 -> length (positions cell) < fuel ->
  exists rest, cleared cell (sp_Z s1) r (sp_Z s2) rest /\
    let out := cmd_atclear std dump fuel cell infile cenele r ele refined fs in
    (rest = [] -> out = Some (Raise ValueError)) /\
    (rest <> [] -> exists g, lattice g = lattice cell /\ length (positions g) = length (numbers g) /\ Permutation (atoms g) rest /\
       exists o, out = Some o /\
       forall x, o = Ok x <-> exists g', written_cell (get_refined_pcell std) refined g g' /\ delivered dump (notice infile) infile "_ACLR" (Some "vasp"%string) g' fs x).
Proof.
  intros NE L S E1 E2 FU. destruct (start NE L S) as (hp & c & ss & E & W & X & M & _).
  assert (FU' : length ss < fuel) by (rewrite <- (map_length pair_of), M, (atoms_length L); exact FU).
  destruct (@C49_removes hp c (lattice cell) ss s1 r (Some s2) fuel W X FU') as (h' & ss' & V & W' & X' & WO & _).
  exists (map pair_of ss'). split.
  { unfold cleared. rewrite <- M. apply without_map. eapply without_ext; [|exact WO]. intros s. cbn.
    split; [intros (A & ce & I & B & D); split; [exact A|]; exists (pair_of ce); split; [apply in_map_iff; eauto|auto]|].
    intros (A & b & I & B & D). split; [exact A|]. apply in_map_iff in I as (ce & <- & I). exists ce. auto. }
  cbv zeta. unfold cmd_atclear. rewrite E, E1, E2. cbn [bind]. rewrite V.
  destruct (C43_to_gcell h' c (lattice cell) ss' W' X') as [T1 T2]. split.
  - intros N. apply map_eq_nil in N. rewrite (T1 N). reflexivity.
  - intros N. assert (N' : ss' <> []) by (intros ->; auto). destruct (T2 N') as (g & T & LT & LN & P). rewrite T. cbn [bind].
    exists g. split; [exact LT|]. split; [exact LN|]. split; [exact P|]. eexists. split; [reflexivity|].
    intros x. rewrite bind_ok. split; intros (g' & F & D); exists g'; (split; [now apply final_cell_iff in F || now apply final_cell_iff|]);
      apply (@deliver_spec (notice infile) infile "_ACLR" (Some "vasp"%string) g' fs x tag_aclr mode_vasp); exact D.
Qed.
Lemma perturb_cmd_spec cell infile r rnd us fs : positions cell <> [] -> length (positions cell) = length (numbers cell) ->
  Forall supported (numbers cell) -> volume (lattice cell) <> 0%Qc ->
  without (fun d : vec Qc * Qc => snd d = 0%Qc) rnd us -> length (positions cell) <= length us ->
  exists new g, shaken cell r us new /\ lattice g = lattice cell /\ length (positions g) = length (numbers g) /\ Permutation (atoms g) new /\
    exists x, cmd_perturb dump cell infile r rnd fs = Some (Ok x) /\ delivered dump (notice infile) infile "_PURB" (Some "vasp"%string) g fs x.
Proof.
  intros NE L S V U LU. destruct (start NE L S) as (hp & c & ss & E & W & X & M & rs & HR & ND & LR).
  assert (LS : length ss = length (positions cell)) by (rewrite <- (map_length pair_of), M; apply atoms_length; exact L).
  assert (LU' : length rs <= length us) by lia.
  destruct (@C46_perturb hp c rs (lattice cell) ss r rnd us W HR ND X V U LU') as (h' & ss' & P & X' & LL & K).
  assert (W' : wf_heap h').
  { assert (C : is_cell hp c) by (apply contains_iff in X; [apply X|exact W]).
    exact (proj1 (perturb_frame W C P)). }
  destruct (C43_to_gcell h' c (lattice cell) ss' W' X') as [_ T2].
  assert (N' : ss' <> []). { intros ->. destruct ss; [|discriminate]. destruct (positions cell); [congruence|discriminate]. }
  destruct (T2 N') as (g & T & LT & LN & PM). exists (map pair_of ss'), g. split; [|split; [exact LT|split; [exact LN|split; [exact PM|]]]].
  - split; [rewrite map_length, <- M, map_length; exact LL|]. intros k a A. rewrite <- M, nth_error_map in A.
    destruct (nth_error ss k) as [s|] eqn:Es; [|discriminate]. injection A as <-.
    destruct (K k s Es) as (s' & v & n & K1 & K2 & [K3 K4] & K5). exists (pair_of s'), v, n.
    split; [rewrite nth_error_map, K1; reflexivity|]. split; [exact K2|]. cbn. split; [now rewrite K3|]. auto.
  - unfold cmd_perturb. rewrite E, P, T. cbn [bind].
    assert (SG : Forall supported (numbers g)).
    { apply Forall_forall. intros z I. rewrite <- (map_snd_combine _ _ LN) in I.
      apply (Permutation_in z (Permutation_map snd PM)) in I. rewrite map_map in I. apply in_map_iff in I as (s' & <- & I).
      apply In_nth_error in I as (k & I). destruct (nth_error ss k) as [s|] eqn:Es; [|apply nth_error_None in Es; assert (k < length ss') by (apply nth_error_Some; congruence); lia].
      destruct (K k s Es) as (s2 & v & n & K1 & _ & [K3 _] & _). assert (s2 = s') by congruence. subst s2. cbn. rewrite K3.
      assert (I2 : In (pair_of s) (atoms cell)) by (rewrite <- M; apply in_map_iff; exists s; split; [reflexivity|eapply nth_error_In; eauto]).
      unfold atoms, pair_of in I2. apply in_combine_r in I2. rewrite Forall_forall in S. apply S. exact I2. }
    destruct (@deliver_total (notice infile) infile "_PURB" (Some "vasp"%string) g fs tag_purb mode_vasp SG) as (x & D).
    exists x. split; [exact (f_equal Some D)|]. apply deliver_spec; [exact tag_purb|exact mode_vasp|exact D].
Qed.
End One.
