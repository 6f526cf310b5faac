(** Buckyballs and grids in order. *)
From Coq Require Import String Sorted QArith Qcanon.
From Verif Require Import Base LBase BaseQ MGeneralCell SGeneralCell LGeneralCell MComb SSubst LComb SSym LSym MSogen LFilter SOcc SEnum LDup LLevels SOrder SOrder2 LSort LOrder LOrder2 LOrder3 LOrder4 LOrder5 LOrder6 MBuckyTable MBucky LBuckyTable LBucky LBucky2.
Set Implicit Arguments.
Unset Strict Implicit.
Open Scope nat_scope.

(** Sixty sites in canonical order. *)
Definition rowlat : mat Qc := (V3 (V3 1%Qc 0%Qc 0%Qc) (V3 0%Qc 1%Qc 0%Qc) (V3 0%Qc 0%Qc 1%Qc)).
Definition rowpos : list (vec Qc) := map (fun i => V3 0%Qc 0%Qc (Q2Qc (Z.of_nat i # 100))) (seq 0 60).
Definition frame : gcell := match GeneralCell_new rowlat rowpos (repeat 6%Z 60) with Ok c => c | Raise _ => mkG rowlat [] [] (rowlat, [], []) 0 end.
Lemma frame_numbers : length (numbers frame) = 60.
Proof. vm_compute. reflexivity. Qed.
Lemma frame_new : GeneralCell_new rowlat rowpos (repeat 6%Z 60) = Ok frame.
Proof. unfold frame. destruct (GeneralCell_new rowlat rowpos (repeat 6%Z 60)) as [c|e] eqn:E; [reflexivity|]. vm_compute in E. discriminate. Qed.
Lemma frame_fc : from_constructor frame.
Proof. exists rowlat, rowpos, (repeat 6%Z 60). split; [reflexivity|exact frame_new]. Qed.
Lemma cellof_fc c x : from_constructor c -> length x = length (numbers c) -> from_constructor (cellof c x).
Proof.
  intros F L. exists (lattice c), (positions c), x. split; [|now apply new_cellof].
  destruct (from_constructor_facts F) as [_ [_ [H _]]]. congruence.
Qed.

Lemma ball_in_order h nums sp k t n_max : length nums = 60 -> preserves bucky_perm_table nums ->
  (forall k, k <= Z.to_nat (n_max - Z.of_nat (count_occ Z.eq_dec nums sp)) -> collision_free h (k_fold nums (site_not nums sp) k sp)) ->
  nth_error (b_all_speckle_gen h (ball nums) n_max sp) k = Some t ->
  arrays_in_order nums sp (leader bucky_perm_table nums (site_not nums sp) k sp) t.
Proof.
  intros L Pr CF. set (c0 := cellof frame nums). assert (FC : from_constructor c0) by (apply cellof_fc; [exact frame_fc|now rewrite frame_numbers]).
  set (o := mkOcc c0 bucky_perm_table []).
  destruct (@site_list (site_not nums sp) (not_b nums sp) (length nums)) as [ST PT].
  { intros i. rewrite not_b_ok. split; [intros H; split; [exact (site_not_lt H)|exact H]|tauto]. }
  assert (HG : perm_group (length (numbers (init_cell o))) (sym_perm o)) by (cbn; rewrite L; exact bucky_group).
  assert (Key : stage o (site_not nums sp) sp k (lift c0 t) -> arrays_in_order nums sp (leader bucky_perm_table nums (site_not nums sp) k sp) t).
  { intros [As [E [SA HA]]]. unfold lift in E. injection E as E1 E2. exists As. split; [assumption|].
    assert (HA' : forall S, In S As <-> leader bucky_perm_table nums (site_not nums sp) k sp S).
    { intros S. rewrite (leader_puts _ _ _ _ (fun i => site_not_lt (i := i))). apply HA. }
    split; [exact HA'|]. split; [exact E2|].
    assert (E3 : items t = map (fun S => puts nums S sp) As).
    { assert (Q : map numbers (map (cellof c0) (items t)) = map numbers (map (shown o sp) As)) by now rewrite E1.
      rewrite !map_map in Q. cbn in Q. now rewrite map_id in Q. }
    rewrite E3. assert (HB : forall S, In S As -> site_choice (site_not nums sp) k S) by (intros S HS; apply HA in HS; apply HS).
    clear - HB. induction As as [|S As IH]; cbn; constructor; [|apply IH; intros U HU; apply HB; now right].
    apply puts_substituted. intros i Hi. destruct (HB S (or_introl eq_refl)) as [_ [_ F]]. rewrite Forall_forall in F. exact (site_not_lt (F i Hi)). }
  intros E. apply Key. unfold b_all_speckle_gen in E. rewrite b_speckle_num_spec in E. cbn [b_numbers ball b_to_gen] in E.
  assert (Z0 : lift c0 (mkTrace [nums] None) = mkTrace [init_cell o] None) by reflexivity.
  destruct k as [|k]; cbn [nth_error] in E.
  - injection E as <-. change (stage o (site_not nums sp) sp 0 (mkTrace [init_cell o] None)). apply stage_zero; assumption.
  - refine (@levels_stage o (site_not nums sp) sp (cond_unitary sp) h _ FC _ _ HG Pr (inv_not _ Pr) ST PT _ CF k (lift c0 t) _).
    + auto.
    + exact (@CO_unitary o sp).
    + rewrite <- Z0. rewrite (@levels_sim h c0 FC o (ball nums) sp _ eq_refl eq_refl (mkTrace [nums] None)).
      * now apply map_nth_error.
      * intros x [<-|[]]. reflexivity.
Qed.

(** all sites at once *)
Lemma speckle_in_order sp k : arrays_in_order carbon sp (site_choice (any_site carbon) k) (gen_speckle sp (Z.of_nat k)).
Proof.
  exists (combos (range 60) k). rewrite gen_speckle_ok. cbn [items stop]. split; [apply combos_sorted, seq_sorted|]. split; [|split; [reflexivity|]].
  - intros S. apply combos_choice; [apply seq_sorted|]. intros i. apply (any_list carbon).
  - assert (I : incl (combos (range 60) k) (combos (range 60) k)) by apply incl_refl. revert I.
    generalize (combos (range 60) k) at 1 3 4. intros l. induction l as [|c l IH]; intros I; cbn [map]; [constructor|].
    constructor; [eapply puts_sub, I; now left|]. apply IH. intros d Hd. apply I. now right.
Qed.
Lemma carbon_preserved : preserves bucky_perm_table carbon.
Proof.
  intros p Hp. destruct bucky_group as [HP _]. specialize (HP p Hp). apply reordered_intro.
  - unfold carbon. rewrite repeat_length. rewrite (Permutation_length HP). now rewrite seq_length.
  - intros i q E. assert (L : q < 60) by exact (perm_lt HP E). unfold carbon. exists 6%Z.
    assert (Li : i < 60). { rewrite <- (seq_length 60 0), <- (Permutation_length HP). apply nth_error_Some. congruence. }
    split; apply nth_error_repeat; assumption.
Qed.
Lemma ball_direct h sp k nums : collision_free h (k_fold carbon (any_site carbon) k sp) ->
  arrays_in_order carbon sp (leader bucky_perm_table carbon (any_site carbon) k sp) (to_nodup_generator h (ball nums) (gen_speckle sp (Z.of_nat k))).
Proof.
  intros CF. set (c0 := cellof frame carbon).
  assert (FC : from_constructor c0) by (apply cellof_fc; [exact frame_fc|now rewrite frame_numbers]).
  set (o := mkOcc c0 bucky_perm_table []).
  assert (HG : perm_group (length (numbers (init_cell o))) (sym_perm o)) by exact bucky_group.
  assert (E : gen_dup_unitary o (Z.of_nat k) sp = lift c0 (gen_speckle sp (Z.of_nat k))).
  { transitivity (mkTrace (map (shown o sp) (combos (range 60) k)) None).
    { exact (dup_trace (o := o) (P := any_site carbon) FC (seq_sorted 0 _) (any_list carbon) (fun i H => H) k sp). }
    rewrite gen_speckle_ok. unfold lift. cbn [items stop]. rewrite map_map. reflexivity. }
  assert (H : in_order o sp (leader bucky_perm_table carbon (any_site carbon) k sp) (gen_2nodup_gen h o (gen_dup_unitary o (Z.of_nat k) sp))) by exact (nodup_in_order (o := o) (h := h) (P := any_site carbon) FC (seq_sorted 0 _) (any_list carbon) (fun i H => H) HG carbon_preserved (inv_any HG eq_refl) CF).
  rewrite E in H.
  unfold gen_2nodup_gen, gen_2nodup_gen_with, lift in H. cbn [items stop] in H. rewrite nodup_sim in H.
  destruct H as [Ss [H1 [H2 [H3 H4]]]]. exists Ss. split; [assumption|]. split; [exact H2|]. split; [exact H3|].
  unfold to_nodup_generator. cbn [lift items] in H4. change (sym_perm o) with bucky_perm_table in H4. cbn [b_sym_perm ball].
  revert H4. generalize (items (b_nodup_loop h bucky_perm_table [] (items (gen_speckle sp (Z.of_nat k))) (stop (gen_speckle sp (Z.of_nat k))))).
  clear. induction Ss as [|S Ss IH]; intros [|x l] H; inversion H; subst; constructor; [tauto|auto].
Qed.

Lemma arrays_unique init v (Q Q' : list nat -> Prop) t t' : (forall S, Q S <-> Q' S) -> arrays_in_order init v Q t -> arrays_in_order init v Q' t' -> t = t'.
Proof.
  intros QQ [Ss [S1 [H1 [E1 F1]]]] [Ss' [S2 [H2 [E2 F2]]]].
  assert (Ss = Ss').
  { apply (ordered_unique before_irr before_trans S1 S2). intros S. rewrite H1, H2. apply QQ. }
  subst Ss'. destruct t as [l e], t' as [l' e']; cbn in *. subst e e'. f_equal. clear - F1 F2.
  revert l' F2. induction F1 as [|S c Ss l Hs F IH]; intros l' F2; inversion F2 as [|? c' ? l'' Hs' F']; subst; [reflexivity|].
  f_equal; [|auto]. exact (substituted_fun (fun i => iff_refl _) Hs Hs').
Qed.
Lemma ball_same h sp k t n_max : sp <> 6%Z -> (forall k, k <= Z.to_nat n_max -> collision_free h (k_fold carbon (any_site carbon) k sp)) ->
  nth_error (b_all_speckle_gen h (ball carbon) n_max sp) k = Some t -> forall nums, t = to_nodup_generator h (ball nums) (gen_speckle sp (Z.of_nat k)).
Proof.
  intros N CF E nums.
  assert (C0 : count_occ Z.eq_dec carbon sp = 0). { apply count_occ_not_In. intros K. apply repeat_spec in K. contradiction. }
  assert (EP : forall i, site_not carbon sp i <-> any_site carbon i).
  { intros i. split; [apply site_not_lt|]. intros L. exists 6%Z. split; [apply nth_error_repeat; exact L|congruence]. }
  assert (LK : k <= Z.to_nat n_max).
  { assert (L : k < length (b_all_speckle_gen h (ball carbon) n_max sp)) by (apply nth_error_Some; congruence).
    rewrite b_all_length in L. change (b_numbers (ball carbon)) with carbon in L. rewrite C0, Z.sub_0_r in L. lia. }
  refine (arrays_unique (fun S => leader_ext _ _ _ _ _ EP) (ball_in_order (n_max := n_max) (k := k) (t := t) (h := h) _ carbon_preserved _ E) (ball_direct nums (CF k LK))); [reflexivity|].
  rewrite C0, Z.sub_0_r. intros m Hm x y Hx Hy. apply (CF m Hm).
  - destruct Hx as [Sx [[A [B F]] Hx]]. exists Sx. split; [split; [exact A|split; [exact B|intros i Hi; apply (proj1 (EP i)); auto]]|exact Hx].
  - destruct Hy as [Sx [[A [B F]] Hy]]. exists Sx. split; [split; [exact A|split; [exact B|intros i Hi; apply (proj1 (EP i)); auto]]|exact Hy].
Qed.
