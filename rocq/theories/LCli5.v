(** The ternary applications. *)
From Coq Require Import String Ascii.
From Verif Require Import Base BaseQ SElement MElement LElement MGeneralCell SGeneralCell LGeneralCell MRestrict MSogen LSymDec MText MIO SIO LIO6
  SSubst SSym SOcc SEnum LMisc LSogen SCli MCli SCliApp LCli LCli2 LCli3 LCli4 LHnf LGrid2 PSogen.
Set Implicit Arguments.
Unset Strict Implicit.
Open Scope list_scope.
Open Scope nat_scope.
Notation length := List.length.

Lemma selected_det A (W : A -> Prop) l k1 k2 : selected W l k1 -> selected W l k2 -> k1 = k2.
Proof.
  intros S. revert k2. induction S as [|x l k H S IH|x l k H S IH]; intros k2 T; inversion T; subst; try contradiction; auto.
  f_equal. auto.
Qed.
Lemma selected_filter A (W : A -> Prop) b l : (forall x, b x = true <-> W x) -> selected W l (List.filter b l).
Proof.
  intros H. induction l as [|x l IH]; cbn; [constructor|]. destruct (b x) eqn:E.
  - constructor; [now apply H|exact IH].
  - constructor; [|exact IH]. intros K. apply H in K. congruence.
Qed.

Section App.
Context (spg_ops : gcell -> list symop) (spg_wyckoffs : gcell -> list string)
  (psize : mat Qc * list (vec Qc) * list Z -> nat)
  (standardize : mat Qc * list (vec Qc) * list Z -> mat Qc * list (vec Qc) * list Z)
  (h : list Z -> Z) (dump : ydoc -> string).
Notation refine := (get_refined_pcell standardize).

Definition isok (r : res bool) : bool := match r with Ok true => true | _ => false end.
Lemma comps_out a tr gen comps out : comps_result psize a tr gen comps out ->
  out = List.flat_map (fun n => map (fun c => (c, n)) (List.filter (fun c => isok (accepted psize (t_mpr a) tr c)) (gen (fst n) (snd n)))) comps.
Proof.
  intros C. induction C as [|n1 n2 rest kept out S C IH]; cbn; [reflexivity|]. f_equal; [|exact IH]. f_equal.
  eapply selected_det; [exact S|]. apply selected_filter. intros c. rewrite <- accepted_iff.
  unfold isok. destruct (accepted psize (t_mpr a) tr c) as [[]|]; split; congruence.
Qed.

Lemma tsave_total a dir tmp n0 n1 n2 c fs : writable standardize (t_refined a) c ->
  exists fs', tsave standardize dump a dir tmp n0 n1 n2 c fs = Ok fs'.
Proof.
  intros (c' & HW & S). unfold tsave. rewrite (proj2 (final_cell_iff _ _ _ _) HW). cbn [bind].
  assert (exists t, legacy_render dump (t_outmode a) c' = Ok t) as (t & ->); [|cbn; eauto].
  destruct (mapM_to_name S) as (names & E & _). unfold legacy_render. destruct (String.eqb (t_outmode a) "vasp").
  - destruct (@render_total dump Fvasp c' S) as (t & E'). exists t. exact E'.
  - unfold legacy_yaml_doc. rewrite E. cbn. eauto.
Qed.

Lemma emit_comps_total acc sv gen comps : (forall n1 n2, In (n1, n2) comps -> exists t, gen n1 n2 = Ok t /\ stop t = None /\
    (forall c, In c (items t) -> exists b, acc c = Ok b) /\
    (forall c fs, In c (items t) -> acc c = Ok true -> exists fs', sv n1 n2 c fs = Ok fs')) ->
  forall fs, snd (emit_comps acc sv gen comps fs) = None.
Proof.
  induction comps as [|[n1 n2] rest IH]; intros H fs; cbn [emit_comps]; [reflexivity|].
  destruct (H n1 n2 (or_introl eq_refl)) as (t & EG & ST & HA & HS). rewrite EG. unfold emit_trace.
  pose proof (@emit_total _ acc (fun _ : nat => sv n1 n2) (items t) HA (fun c k f I => HS c f I) 0 fs) as T.
  destruct (emit acc (fun _ : nat => sv n1 n2) (items t) 0 fs) as [[k' fs'] e]. cbn in T. subst e. rewrite ST. apply IH. intros m1 m2 I. apply H. now right.
Qed.

Definition zpair (n : nat * nat) : Z * Z := (Z.of_nat (fst n), Z.of_nat (snd n)).

Lemma ternary_classes N early a comps cwd rd tmp fs ds o tr s1 s2 :
  ds (structures_dir cwd (t_comment a) rd) = false ->
  make_occ spg_ops spg_wyckoffs (t_cell a) = Ok o -> restriction_of (t_tr a) = Ok tr -> fresh_names N tmp ->
  Specie_new (t_s1 a) = Ok s1 -> Specie_new (t_s2 a) = Ok s2 ->
  from_constructor (t_cell a) -> perm_group (length (numbers (t_cell a))) (sym_perm o) -> preserves (sym_perm o) (numbers (t_cell a)) ->
  (forall n1 n2, In (n1, n2) comps -> collision_free h (two_fold (numbers (t_cell a)) n1 (sp_Z s1) n2 (sp_Z s2))) ->
  ternary_inputs psize standardize a tr o (sp_Z s1) (sp_Z s2) comps ->
  ternary_result psize standardize dump N a tr o (sp_Z s1) (sp_Z s2) comps (structures_dir cwd (t_comment a) rd) fs
    (run_ternary spg_ops spg_wyckoffs psize standardize h dump early a (map zpair comps) cwd rd tmp fs ds).
Proof.
  intros DS MO RT FR ES1 ES2 FC PG PR CF TI. unfold run_ternary. rewrite DS, MO. cbn [bind].
  assert (ER : (do _ <- (if early then do _ <- Specie_new (t_s1 a); do _ <- Specie_new (t_s2 a); Ok tt else Ok tt);
           do tr <- restriction_of (t_tr a); Ok (o, tr)) = Ok (o, tr)).
  { destruct early; [rewrite ES1; cbn [bind]; rewrite ES2|]; cbn [bind]; rewrite RT; reflexivity. }
  rewrite ER. clear ER. pose proof (make_occ_cell MO) as EC. 
  set (dir := structures_dir cwd (t_comment a) rd).
  assert (G : forall n1 n2, In (n1, n2) comps ->
    let t := gen_nodup_trinary_alloy h o (sp_Z s1) (Z.of_nat n1) (sp_Z s2) (Z.of_nat n2) in
    stop t = None /\ Forall (same_frame (t_cell a)) (items t) /\
    transversal (equivalent (sym_perm o)) (two_fold (numbers (t_cell a)) n1 (sp_Z s1) n2 (sp_Z s2)) (map numbers (items t))).
  { intros n1 n2 I. rewrite <- EC in *. apply C20_ternary; auto. }
  destruct (@emit_comps_spec psize standardize h dump N a tr dir tmp o (sp_Z s1) (sp_Z s2) FR) with (comps := map zpair comps) (fs := fs) as (out & ws & O1 & _ & O3 & O4).
  { eauto 10. }
  pose proof (@emit_comps_total (accepted psize (t_mpr a) tr) (fun n1 n2 => tsave standardize dump a dir tmp (Z.of_nat (t_size a) - n1 - n2)%Z n1 n2)
    (ternary_gen h a o) (map zpair comps)) as T.
  assert (EX : snd (emit_comps (accepted psize (t_mpr a) tr) (fun n1 n2 => tsave standardize dump a dir tmp (Z.of_nat (t_size a) - n1 - n2)%Z n1 n2)
    (ternary_gen h a o) (map zpair comps) fs) = None).
  { apply T. intros m1 m2 I. apply in_map_iff in I as ([n1 n2] & [= <- <-] & I). destruct (G n1 n2 I) as (G1 & G2 & G3).
    destruct (TI n1 n2 I) as (HW & HM & _).
    exists (gen_nodup_trinary_alloy h o (sp_Z s1) (Z.of_nat n1) (sp_Z s2) (Z.of_nat n2)). split.
    { unfold ternary_gen. rewrite ES1. cbn [bind]. rewrite ES2. reflexivity. }
    split; [exact G1|]. rewrite Forall_forall in G2. destruct G3 as (G3 & _). rewrite Forall_forall in G3.
    assert (DD : forall c, In c (items (gen_nodup_trinary_alloy h o (sp_Z s1) (Z.of_nat n1) (sp_Z s2) (Z.of_nat n2))) ->
      two_fold (numbers (t_cell a)) n1 (sp_Z s1) n2 (sp_Z s2) (numbers c)) by (intros c Ic; apply G3, in_map, Ic).
    split.
    - intros c Ic. apply accepted_total. intros z d E. rewrite (frame_decorated (G2 c Ic)). eapply HM; eauto.
    - intros c f Ic _. apply tsave_total. rewrite (frame_decorated (G2 c Ic)). apply HW, DD, Ic. }
  destruct (emit_comps _ _ _ _ fs) as [fs' e]. cbn [fst snd] in *. subst e. split; [reflexivity|]. cbn [o_files].
  specialize (O1 eq_refl).
  set (f := fun n : nat * nat => List.filter (fun c => isok (accepted psize (t_mpr a) tr c)) (items (gen_nodup_trinary_alloy h o (sp_Z s1) (Z.of_nat (fst n)) (sp_Z s2) (Z.of_nat (snd n))))).
  exists f, ws. split; [|split; [|exact O4]].
  - intros n1 n2 I. destruct (G n1 n2 I) as (G1 & G2 & G3). destruct (TI n1 n2 I) as (_ & _ & INV).
    eapply selected_transversal with (V := fun x => wanted psize (t_mpr a) tr (decorated (t_cell a) x)); [exact G2|reflexivity|exact G3| |exact INV].
    apply selected_filter. intros c. rewrite <- accepted_iff. unfold isok. destruct (accepted psize (t_mpr a) tr c) as [[]|]; split; congruence.
  - apply comps_out in O1. rewrite O1 in O3. clear O1 O4 T G CF TI.
    assert (E : forall g : Z * Z -> list gcell, List.flat_map (fun n => map (fun c => (c, n)) (g n)) (map zpair comps) =
      map (fun cn => (fst cn, zpair (snd cn))) (List.flat_map (fun n => map (fun c => (c, n)) (g (zpair n))) comps)).
    { intros g. clear. induction comps as [|n l IH]; cbn; [reflexivity|]. rewrite map_app, IH. f_equal. rewrite map_map. reflexivity. }
    rewrite E in O3. clear E. cbn [fst snd zpair] in O3. unfold f.
    generalize dependent ws.
    generalize (List.flat_map (fun n : nat * nat => map (fun c => (c, n)) (List.filter (fun c => isok (accepted psize (t_mpr a) tr c)) (items (gen_nodup_trinary_alloy h o (sp_Z s1) (Z.of_nat (fst n)) (sp_Z s2) (Z.of_nat (snd n)))))) comps).
    intros l. induction l as [|x l IH]; intros ws F; cbn in F; inversion F; subst; constructor; [assumption|auto].
Qed.

(** the names: all sites hold the element *)
Lemma two_fold_counts init n1 v1 n2 v2 e x : two_fold init n1 v1 n2 v2 x -> Forall (eq e) init -> v1 <> v2 -> v1 <> e -> v2 <> e ->
  count_occ Z.eq_dec x v1 = n1 /\ count_occ Z.eq_dec x v2 = n2 /\ count_occ Z.eq_dec x e = length init - n1 - n2.
Proof.
  intros (S1 & S2 & (N1 & L1 & P1) & (N2 & L2 & P2) & DJ & LX & H) FE D12 D1 D2.
  assert (HE : forall i, i < length init -> nth_error init i = Some e).
  { intros i Hi. destruct (nth_error init i) as [b|] eqn:E; [|apply nth_error_None in E; lia].
    rewrite Forall_forall in FE. now rewrite (FE b (nth_error_In _ _ E)). }
  assert (LT : forall i v, nth_error x i = Some v -> i < length init) by (intros i v E; rewrite <- LX; apply nth_error_Some; congruence).
  assert (B1 : forall i, In i S1 -> i < length init) by (intros i I; exact (P1 i I)).
  assert (B2 : forall i, In i S2 -> i < length init) by (intros i I; exact (P2 i I)).
  assert (ND : forall v, NoDup (positions_of v x)) by (intros v; unfold positions_of; apply NoDup_filter, seq_NoDup).
  assert (C : forall i, i < length init -> (In i S1 /\ nth_error x i = Some v1) \/ (In i S2 /\ nth_error x i = Some v2) \/ (~ In i S1 /\ ~ In i S2 /\ nth_error x i = Some e)).
  { intros i Hi. destruct (H i e (HE i Hi)) as (A1 & A2 & A3).
    destruct (in_dec Nat.eq_dec i S1) as [I|I]; [left; auto|]. destruct (in_dec Nat.eq_dec i S2) as [J|J]; [right; left; auto|right; right; auto]. }
  assert (Q1 : Permutation (positions_of v1 x) S1).
  { apply NoDup_Permutation; auto. intros i. rewrite positions_In. split; intros K.
    - destruct (C i (LT i _ K)) as [[? _]|[[_ E]|(_ & _ & E)]]; [assumption|congruence|congruence].
    - destruct (C i (B1 i K)) as [[_ ?]|[[J _]|(J & _)]]; [assumption|now apply DJ in K|contradiction]. }
  assert (Q2 : Permutation (positions_of v2 x) S2).
  { apply NoDup_Permutation; auto. intros i. rewrite positions_In. split; intros K.
    - destruct (C i (LT i _ K)) as [[_ E]|[[? _]|(_ & _ & E)]]; [congruence|assumption|congruence].
    - destruct (C i (B2 i K)) as [[J _]|[[_ ?]|(_ & J & _)]]; [now apply DJ in J|assumption|contradiction]. }
  assert (Q3 : Permutation (S1 ++ S2 ++ positions_of e x) (seq 0 (length init))).
  { apply NoDup_Permutation; [|apply seq_NoDup|].
    - apply NoDup_app_disj; [assumption|apply NoDup_app_disj; auto|].
      + intros i I J. apply positions_In in J. destruct (C i (B2 i I)) as [[K _]|[[_ E]|(_ & K & _)]]; [now apply DJ in K|congruence|contradiction].
      + intros i I J. apply in_app_iff in J as [J|J]; [now apply DJ in I|].
        apply positions_In in J. destruct (C i (B1 i I)) as [[_ E]|[[K _]|(K & _)]]; [congruence|now apply DJ in I|contradiction].
    - intros i. rewrite !in_app_iff, positions_In, in_seq. split.
      + intros [K|[K|K]]; [apply B1 in K|apply B2 in K|apply LT in K]; lia.
      + intros [_ K]. destruct (C i K) as [[? _]|[[? _]|(_ & _ & ?)]]; auto. }
  rewrite <- !positions_count, (Permutation_length Q1), (Permutation_length Q2). apply Permutation_length in Q3.
  rewrite !app_length, seq_length in Q3. lia.
Qed.
End App.
