(** Number of files of ocubiter; the ternary applications. *)
From Coq Require Import String Ascii.
From Verif Require Import Base BaseQ LBase SElement MElement LElement MGeneralCell SGeneralCell LGeneralCell MHnf MRestrict MSogen MText LText MIO SIO
  SSubst SSym LSym LComb LFilter SOcc SEnum LDup LLevels LMisc LSogen SCli MCli SCliApp LCli LCli2 LCli3.
Set Implicit Arguments.
Unset Strict Implicit.
Open Scope list_scope.
Open Scope nat_scope.
Notation length := List.length.
Notation "a +++ b" := (String.append a b) (at level 60, right associativity).

Fixpoint words (n : nat) : list string :=
  match n with
  | O => [EmptyString]
  | S n' => List.flat_map (fun c => map (String c) (words n')) upper_digits
  end.
Lemma words_In n : forall s, suffix_word n s -> In s (words n).
Proof.
  induction n as [|n IH]; intros s [L H].
  - destruct s; [now left|discriminate].
  - destruct s as [|c s]; [discriminate|]. cbn [words]. apply in_flat_map. exists c. split; [apply H; now left|].
    apply in_map, IH. split; [now injection L|]. intros d I. apply H. now right.
Qed.
Lemma flat_map_const A B (f : A -> list B) k l : (forall a, length (f a) = k) -> length (List.flat_map f l) = length l * k.
Proof. intros H. induction l as [|a l IH]; cbn; [reflexivity|]. rewrite app_length, H, IH. reflexivity. Qed.
Lemma words_length n : Z.of_nat (length (words n)) = (36 ^ Z.of_nat n)%Z.
Proof.
  induction n as [|n IH]; [reflexivity|]. cbn [words]. rewrite flat_map_const with (k := length (words n)) by (intros; apply map_length).
  change (length upper_digits) with 36%nat. rewrite Nat2Z.inj_mul, IH. replace (Z.of_nat (S n)) with (Z.succ (Z.of_nat n)) by lia. rewrite Z.pow_succ_r by lia. reflexivity.
Qed.

Lemma swapped_perm init ele sp k x y : ele <> sp -> swapped init ele sp k x -> swapped init ele sp k y -> Permutation x y.
Proof.
  intros N (A1 & A2 & A3) (B1 & B2 & B3). apply (Permutation_count_occ Z.eq_dec). intros w.
  destruct (Z.eq_dec w sp) as [->|W1]; [congruence|]. destruct (Z.eq_dec w ele) as [->|W2]; [lia|]. rewrite A3, B3; auto.
Qed.

Section App.
Context (spg_ops : gcell -> list symop) (spg_wyckoffs : gcell -> list string)
  (psize : mat Qc * list (vec Qc) * list Z -> nat)
  (standardize : mat Qc * list (vec Qc) * list Z -> mat Qc * list (vec Qc) * list Z)
  (h : list Z -> Z) (dump : ydoc -> string).
Notation refine := (get_refined_pcell standardize).

Lemma few_paths mode dir (suffix : nat -> string) (S : list string) kept ws : (forall k, In (suffix k) S) ->
  (forall c d, In c kept -> In d kept -> comment c = comment d) ->
  indexed (fun k => structure_file refine dump false mode dir (suffix k)) kept ws ->
  exists L, length L = length S /\ incl (map fst ws) L.
Proof.
  intros HS HC [EL H].
  assert (exists com, forall c s, In c kept -> comment c = Ok s -> s = com) as (com & HCOM).
  { destruct kept as [|c0 kept]; [exists ""%string; intros ? ? []|]. destruct (comment c0) as [s0|e] eqn:E0.
    - exists s0. intros c s I Es. rewrite (HC c c0 I (or_introl eq_refl)), E0 in Es. congruence.
    - exists ""%string. intros c s I Es. rewrite (HC c c0 I (or_introl eq_refl)), E0 in Es. discriminate. }
  exists (map (fun w => dir +++ "/STRUCTURE_" +++ com +++ "_" +++ w +++ "." +++ mode) S). split; [apply map_length|].
  intros p I. apply In_nth_error in I as (k & E). rewrite nth_error_map in E. destruct (nth_error ws k) as [w|] eqn:Ew; [|discriminate].
  cbn in E. injection E as <-. destruct (nth_error kept k) as [c|] eqn:Ec.
  2:{ apply nth_error_None in Ec. assert (nth_error ws k <> None) as K%nth_error_Some by congruence. lia. }
  destruct (H k c w Ec Ew) as (c' & s & f & E1 & E2 & E3 & _). cbn in E1. subst c'.
  apply in_map_iff. exists (suffix k). split; [|apply HS]. rewrite (HCOM c s (nth_error_In _ _ Ec) E2) in E3. now symmetry.
Qed.

Lemma biter_few a n cwd rd suffix fs ds o tr : ds (structures_dir cwd (a_comment a) rd) = false ->
  make_occ spg_ops spg_wyckoffs (a_cell a) = Ok o -> restriction_of (a_tr a) = Ok tr -> a_n a = Z.of_nat n ->
  from_constructor (a_cell a) -> a_ele a <> a_speckle a -> a_refined a = false -> forall S, (forall k, In (suffix k) S) ->
  let r := biter_run spg_ops spg_wyckoffs psize standardize h dump a cwd rd suffix fs ds in
  exists L, length L = length S /\ forall p, ~ In p L -> o_files r p = fs p.
Proof.
  intros DS MO RT EN FC NE UR S HS r. pose proof (make_occ_cell MO) as EC. rewrite <- EC in FC.
  pose proof (@C25_nodup_ele h o FC (a_ele a) n (a_speckle a) NE) as SW. rewrite Forall_forall in SW.
  destruct (@run_app_spec spg_ops spg_wyckoffs psize standardize dump a (fun o => [gen_nodup_of_ele h o (a_ele a) (a_n a) (a_speckle a)]) cwd rd suffix fs ds o tr DS MO RT)
    as ((d & rest & kept & ws & E1 & E2 & E3 & E4 & E5) & _).
  cbn [List.flat_map] in E1. rewrite app_nil_r, EN in E1. rewrite UR in E3.
  assert (CM : forall c c', In c kept -> In c' kept -> comment c = comment c').
  { assert (K : forall c, In c kept -> swapped (numbers (init_cell o)) (a_ele a) (a_speckle a) n (numbers c)).
    { intros c I. apply (subseq_incl (selected_subseq E2)) in I. apply SW. rewrite E1. apply in_app_iff. now left. }
    intros c c' I I'. apply comment_order_independent. apply (swapped_perm NE (K c I) (K c' I')). }
  destruct (few_paths HS CM E3) as (L & HL & HI).
  exists L. split; [exact HL|]. intros p N. destruct E4 as [E4 _]. apply E4. intros I. apply N, HI, I.
Qed.

Lemma too_many mode dir (suffix : nat -> string) m kept ws : (forall k, suffix_word m (suffix k)) ->
  (forall c d, In c kept -> In d kept -> Permutation (numbers c) (numbers d)) ->
  indexed (fun k => structure_file refine dump false mode dir (suffix k)) kept ws ->
  (36 ^ Z.of_nat m < Z.of_nat (length kept))%Z -> ~ NoDup (map fst ws).
Proof.
  intros HS HP H LT ND. destruct (few_paths (fun k => words_In (HS k)) (fun c d I J => comment_order_independent _ _ (HP c d I J)) H) as (L & HL & HI).
  pose proof (NoDup_incl_length ND HI) as K. rewrite map_length in K. destruct H as [EL _]. rewrite HL in K. pose proof (words_length m). lia.
Qed.

(** ** Ternary *)
Lemma str_app_nil s : s +++ "" = s. Proof. apply app_nil_s. Qed.

Lemma legacy_text mode c t : legacy_render dump mode c = Ok t <-> ternary_text dump mode c t.
Proof.
  unfold legacy_render, ternary_text. destruct (String.eqb mode "vasp"); [reflexivity|].
  unfold legacy_yaml_doc. rewrite bind_ok. split.
  - intros (d & E & [= <-]). apply bind_ok in E as (names & E & [= <-]). eauto.
  - intros (names & E & ->). eexists. split; [apply bind_ok; eauto|reflexivity].
Qed.

Lemma nr_app N (fs : files) ws1 fs1 ws2 fs2 : new_if_room N fs ws1 fs1 -> new_if_room N fs1 ws2 fs2 -> new_if_room N fs (ws1 ++ ws2) fs2.
Proof.
  intros H1 H2 n HF HN. rewrite app_length in HN. assert (A1 : all_new fs ws1 fs1) by (apply (H1 n); [exact HF|lia]).
  apply (an_app string_dec A1). apply (H2 (n + length ws1)); [|lia]. destruct HF as (L & HL & H), A1 as [(_ & _ & B) _].
  exists (map fst ws1 ++ L). rewrite app_length, map_length. split; [lia|]. intros p K. apply in_app_iff.
  destruct (in_dec string_dec p (map fst ws1)) as [I|I]; [now left|]. right. apply H. now rewrite <- (B p I).
Qed.

Lemma tsave_spec N tmp a dir n0 n1 n2 c fs fs' : fresh_names N tmp -> tsave standardize dump a dir tmp n0 n1 n2 c fs = Ok fs' ->
  exists w, ternary_file refine dump (t_refined a) (t_outmode a) dir n0 n1 n2 c w /\ new_if_room N fs [w] fs'.
Proof.
  intros FR H. unfold tsave in H. apply bind_ok in H as (c' & E1 & H). apply bind_ok in H as (t & E2 & H). injection H as <-.
  set (pre := slash dir (ternary_prefix (t_outmode a) n0 n1 n2)). destruct (FR fs pre (ternary_ext (t_outmode a))) as ((x & F2) & F1).
  eexists (_, t). split; [|intros n HF HN; cbn in HN; apply an_put; apply (F1 n); [lia|exact HF]]. exists c', x. cbn [fst snd]. split; [now apply final_cell_iff|]. split; [now apply legacy_text|].
  rewrite F2. unfold pre, slash, ternary_prefix, ternary_ext. destruct (String.eqb (t_outmode a) "vasp"); rewrite !app_assoc_s; reflexivity.
Qed.

Lemma emit_comps_spec N a tr dir tmp o v1 v2 : fresh_names N tmp ->
  (exists s1 s2, Specie_new (t_s1 a) = Ok s1 /\ Specie_new (t_s2 a) = Ok s2 /\ sp_Z s1 = v1 /\ sp_Z s2 = v2) ->
  forall comps fs,
  let r := emit_comps (accepted psize (t_mpr a) tr) (fun n1 n2 => tsave standardize dump a dir tmp (Z.of_nat (t_size a) - n1 - n2)%Z n1 n2)
             (ternary_gen h a o) comps fs in
  exists out ws, 
    (snd r = None -> comps_result psize a tr (fun n1 n2 => items (gen_nodup_trinary_alloy h o v1 n1 v2 n2)) comps out) /\
    (forall c n1 n2, In (c, (n1, n2)) out -> In (n1, n2) comps /\ In c (items (gen_nodup_trinary_alloy h o v1 n1 v2 n2)) /\ wanted psize (t_mpr a) tr c) /\
    Forall2 (fun cn w => ternary_file refine dump (t_refined a) (t_outmode a) dir (Z.of_nat (t_size a) - fst (snd cn) - snd (snd cn))%Z (fst (snd cn)) (snd (snd cn)) (fst cn) w) out ws /\
    new_if_room N fs ws (fst r).
Proof.
  intros FR (s1 & s2 & ES1 & ES2 & V1 & V2). induction comps as [|[n1 n2] rest IH]; intros fs.
  - cbn. exists [], []. split; [constructor|]. split; [intros ? ? ? []|]. split; [constructor|intros ? _ _; apply an_nil].
  - set (t := gen_nodup_trinary_alloy h o v1 n1 v2 n2).
    assert (EG : ternary_gen h a o n1 n2 = Ok t). { unfold ternary_gen. rewrite ES1. cbn [bind]. rewrite ES2. cbn [bind]. rewrite V1, V2. reflexivity. }
    cbn [emit_comps]. cbv zeta. rewrite EG.
    destruct (@emit_trace_spec (accepted psize (t_mpr a) tr) (fun _ => tsave standardize dump a dir tmp (Z.of_nat (t_size a) - n1 - n2)%Z n1 n2)
      (fun _ => ternary_file refine dump (t_refined a) (t_outmode a) dir (Z.of_nat (t_size a) - n1 - n2)%Z n1 n2) (@new_if_room string string N)) with (t := t) (k := 0) (fs := fs)
      as [(d & rs & kept & ws & E1 & E2 & E3 & E4 & E5 & E6) HS].
    { intros f n _ _. apply an_nil. } { exact (@nr_app N). } { intros k c f f' E. exact (tsave_spec FR E). }
    assert (SEL : selected (wanted psize (t_mpr a) tr) d kept) by (eapply selected_ext; [|exact E2]; intros c; apply accepted_iff).
    assert (INK : forall c, In c kept -> In c (items t) /\ wanted psize (t_mpr a) tr c).
    { intros c I. apply (selected_in c SEL) in I as [I HW]. split; [rewrite E1; apply in_app_iff; now left|exact HW]. }
    assert (F2 : Forall2 (fun cn w => ternary_file refine dump (t_refined a) (t_outmode a) dir (Z.of_nat (t_size a) - fst (snd cn) - snd (snd cn))%Z (fst (snd cn)) (snd (snd cn)) (fst cn) w)
        (map (fun c => (c, (n1, n2))) kept) ws).
    { destruct E3 as [EL H]. clear - EL H. revert ws EL H. induction kept as [|c kept IH]; intros [|w ws] EL H; try discriminate; constructor.
      - exact (H 0 c w eq_refl eq_refl).
      - apply IH; [now injection EL|]. intros k x y X Y. exact (H (S k) x y X Y). }
    destruct (emit_trace _ _ t 0 fs) as [[k' fs'] [e|]]; cbn [fst snd] in *.
    + exists (map (fun c => (c, (n1, n2))) kept), ws. split; [discriminate|]. split; [|split; [exact F2|exact E4]].
      intros c m1 m2 I. apply in_map_iff in I as (c0 & [= -> <- <-] & I). destruct (INK c I). split; [now left|auto].
    + destruct (IH fs') as (out & ws' & O1 & O2 & O3 & O4).
      exists (map (fun c => (c, (n1, n2))) kept ++ out), (ws ++ ws'). split; [|split; [|split]].
      * intros EX. constructor; [|apply O1, EX]. rewrite (E6 eq_refl), app_nil_r in E1. unfold t in E1. rewrite E1. exact SEL.
      * intros c m1 m2 I. apply in_app_iff in I as [I|I].
        -- apply in_map_iff in I as (c0 & [= -> <- <-] & I). destruct (INK c I). split; [now left|auto].
        -- destruct (O2 c m1 m2 I) as (J1 & J2 & J3). split; [now right|auto].
      * apply Forall2_app; assumption.
      * exact (nr_app E4 O4).
Qed.

(** compositions of ocumakert *)
Lemma zrange2_In a b x : In x (zrange2 a b) <-> (a <= x < b)%Z.
Proof.
  unfold zrange2. rewrite in_map_iff. split.
  - intros (i & <- & I). apply in_seq in I. lia.
  - intros H. exists (Z.to_nat (x - a)). split; [lia|]. apply in_seq. lia.
Qed.
Lemma zrange2_NoDup a b : NoDup (zrange2 a b).
Proof. unfold zrange2. apply FinFun.Injective_map_NoDup; [|apply seq_NoDup]. intros i j H. lia. Qed.
Lemma comps_In n n1 n2 : In (n1, n2) (makert_comps n) <-> (1 <= n1 /\ 1 <= n2 /\ n1 + n2 < n)%Z.
Proof.
  unfold makert_comps. rewrite in_flat_map. split.
  - intros (m & Im & I). apply in_map_iff in I as (k & [= -> ->] & I). rewrite zrange2_In in *. lia.
  - intros H. exists n1. rewrite zrange2_In. split; [lia|]. apply in_map. rewrite zrange2_In. lia.
Qed.
Lemma comps_NoDup n : NoDup (makert_comps n).
Proof.
  unfold makert_comps. generalize (zrange2_NoDup 1 (n - 1)). generalize (zrange2 1 (n - 1)). intros l N.
  induction N as [|m l NI N IH]; cbn; [constructor|].
  assert (D : NoDup (map (fun n2 => (m, n2)) (zrange2 1 (n - m)))).
  { apply FinFun.Injective_map_NoDup; [|apply zrange2_NoDup]. intros i j [= H]. exact H. }
  assert (X : forall x, In x (map (fun n2 => (m, n2)) (zrange2 1 (n - m))) -> ~ In x (List.flat_map (fun n1 => map (fun n2 => (n1, n2)) (zrange2 1 (n - n1))) l)).
  { intros x I J. apply in_map_iff in I as (k & <- & _). apply in_flat_map in J as (m' & Im & J). apply in_map_iff in J as (k' & [= -> ->] & _). contradiction. }
  induction D as [|x k NI' D IHD]; cbn; [exact IH|]. constructor.
  - rewrite in_app_iff. intros [I|I]; [auto|]. exact (X x (or_introl eq_refl) I).
  - apply IHD. intros y I. apply X. now right.
Qed.
End App.
