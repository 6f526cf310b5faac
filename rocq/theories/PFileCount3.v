(** Property C116: ocumaker writes as many files as there are different suffixes within each
    number of substituted atoms. *)
From Coq Require Import String.
From Verif Require Import Base LBase BaseQ MElement SElement SGeneralCell MGeneralCell MComb SLattice SSubst SSym SOcc SEnum MSogen SBurn LDup LFilter LBurn LMisc LSymDec LSogen PSogen SCount PCount PBurn
  MIO SIO SCli MCli LCli LCli3 SCliApp SCliOne LCli4 LCli7 LCli8 PCli PCli2 SFileCount LFileCount SFileCount2 LFileCount2 PFileCount PFileCount2 SFileCount3 LFileCount3.
Open Scope list_scope.
Open Scope nat_scope.
Notation length := List.length.

(** ocumaker without refinement: the structures with one substituted atom use the first
    suffixes, those with two the next ones, and so on.  A structure is lost exactly if its suffix
    is drawn again for the same number of substituted atoms; suffixes drawn for
    different numbers do no harm. *)
Theorem C116_ocumaker : forall ops wy psize std h dump a cwd rd suffix m fs ds o tr,
  let P := fun i => site_holds (numbers (a_cell a)) (a_ele a) i /\ site_not (numbers (a_cell a)) (a_speckle a) i in
  let n := Z.to_nat (a_n a - Z.of_nat (count_occ Z.eq_dec (numbers (a_cell a)) (a_speckle a))) in
  let dir := (cwd ++ "/STRUCTURES_" ++ a_comment a ++ "_" ++ rd)%string in
  a_refined a = false -> a_ele a <> a_speckle a -> (forall k, String.length (suffix k) = m) -> nothing_below dir fs -> ds dir = false ->
  OccupyGenerator_new (ops (a_cell a)) (wy (a_cell a)) (a_cell a) = Ok o -> restriction_of (a_tr a) = Ok tr ->
  from_constructor (a_cell a) -> perm_group (length (numbers (a_cell a))) (sym_perm o) -> preserves (sym_perm o) (numbers (a_cell a)) ->
  (forall k, k <= n -> collision_free h (k_fold (numbers (a_cell a)) P k (a_speckle a))) ->
  class_inputs psize std a tr o (maker_set a) ->
  exists ks js, length ks = n /\
    (forall k c, nth_error ks k = Some c ->
       burnside_count (sym_perm o) (fun x => k_fold (numbers (a_cell a)) P (S k) (a_speckle a) x /\ wanted psize (a_mpr a) tr (decorated (a_cell a) x)) c) /\
    drawn_in_blocks suffix 0 ks js /\
    files_below dir (o_files (maker_run ops wy psize std h dump a cwd rd suffix fs ds)) (list_sum js).
Proof. intros ops wy psize std h dump a cwd rd suffix m fs ds o tr. exact (@maker_draws ops wy psize std h dump a cwd rd suffix m fs ds o tr). Qed.
Print Assumptions C116_ocumaker.

(** The number is determined by the draws and the sizes of the blocks. *)
Theorem C116_determined : forall suffix ks s js js', drawn_in_blocks suffix s ks js -> drawn_in_blocks suffix s ks js' -> js = js'.
Proof.
  intros suffix ks. induction ks as [|k ks IH]; intros s js js' D D'; inversion D; subst; inversion D'; subst; [reflexivity|].
  f_equal; [|eauto].
  match goal with A : different_draws _ k ?x, B : different_draws _ k ?y |- ?x = ?y => destruct A as (S1 & O1 & <-), B as (S2 & O2 & <-); exact (lists_once_length O1 O2) end.
Qed.
Print Assumptions C116_determined.

(** Nothing is lost exactly if the draws differ within each block: one repetition anywhere in a
    block and there are fewer files than structures. *)
Theorem C116_none_lost : forall suffix ks s js, drawn_in_blocks suffix s ks js ->
  list_sum js <= list_sum ks /\
  (list_sum js = list_sum ks <-> forall b i j, b < length ks -> i < j < nth b ks 0 ->
     suffix (s + list_sum (firstn b ks) + i) <> suffix (s + list_sum (firstn b ks) + j)).
Proof.
  intros suffix ks s js D. induction D as [s|s k j ks js DD D [IL IE]].
  - split; [cbn; lia|]. split; [intros _ b i j Hb; cbn in Hb; lia|reflexivity].
  - pose proof (draws_le DD) as JL. pose proof (draws_all DD) as JA. cbn [list_sum fold_right] in *. fold (list_sum js) (list_sum ks) in *. split; [lia|]. split.
    + intros E. assert (E1 : j = k) by lia. assert (E2 : list_sum js = list_sum ks) by lia. intros [|b] i i' Hb Hi.
      * cbn [firstn list_sum fold_right nth] in *. rewrite Nat.add_0_r. exact (proj1 JA E1 i i' Hi).
      * cbn [firstn list_sum fold_right nth length] in *. fold (list_sum (firstn b ks)).
        pose proof (proj1 IE E2 b i i' ltac:(lia) Hi) as K. rewrite !Nat.add_assoc in *. exact K.
    + intros H. f_equal.
      * apply JA. intros i i' Hi. pose proof (H 0 i i' ltac:(cbn; lia) Hi) as K. cbn [firstn list_sum fold_right] in K. rewrite Nat.add_0_r in K. exact K.
      * apply IE. intros b i i' Hb Hi. pose proof (H (S b) i i' ltac:(cbn; lia) Hi) as K. cbn [firstn list_sum fold_right] in K. fold (list_sum (firstn b ks)) in K.
        rewrite !Nat.add_assoc in *. exact K.
Qed.
Print Assumptions C116_none_lost.

(** The square net: one class with one carbon atom, three with two.  The suffix AAAA is drawn
    for the first, the third and the fourth structure: three files. *)
Lemma z_level k :
  burnside_count (sym_perm sq_occ) (fun x => k_fold [5; 5; 5; 5]%Z (fun i => site_holds [5; 5; 5; 5]%Z 5 i /\ site_not [5; 5; 5; 5]%Z 6 i) k 6 x /\
    wanted x_psize true None (decorated sq_cell x)) (length (items (gen_nodup_of_ele poly sq_occ 5 (Z.of_nat k) 6))).
Proof.
  assert (CF : collision_free poly (k_fold [5; 5; 5; 5]%Z (site_holds [5; 5; 5; 5]%Z 5) k 6)) by (apply kfold_poly; repeat constructor; lia).
  destruct (C82_element poly sq_occ 5%Z k 6%Z sq_fc sq_group sq_preserves CF) as (Gs & Fs & A1 & [A2 A3] & A4).
  exists Gs, Fs. split; [exact A1|]. split; [|exact A4]. split; [exact A2|]. intros f. rewrite A3. unfold fixed_pair.
  assert (W : forall x, wanted x_psize true None (decorated sq_cell x)) by (intros x; split; [reflexivity|intros z d [=]]).
  assert (Q : forall x, k_fold [5; 5; 5; 5]%Z (site_holds [5; 5; 5; 5]%Z 5) k 6 x <->
    k_fold [5; 5; 5; 5]%Z (fun i => site_holds [5; 5; 5; 5]%Z 5 i /\ site_not [5; 5; 5; 5]%Z 6 i) k 6 x).
  { intros x. split; intros (S & (N & L & H) & Sub); exists S; (split; [split; [exact N|split; [exact L|]]|exact Sub]).
    - intros i I. split; [now apply H|]. exists 5%Z. split; [now apply H|discriminate].
    - intros i I. exact (proj1 (H i I)). }
  split; [intros (P1 & P2 & P3)|intros (P1 & [P2 _] & P3)].
  - split; [exact P1|]. split; [split; [apply Q; exact P2|apply W]|exact P3].
  - split; [exact P1|]. split; [apply Q; exact P2|exact P3].
Qed.
Lemma z_inputs : class_inputs x_psize x_std x_app None sq_occ (maker_set x_app).
Proof.
  split; [now left|]. split; [|split].
  - intros x (k & _ & Hx). exact (proj1 (proj2 (x_inputs _ (S k))) x Hx).
  - intros x z d _ [=].
  - intros x y _ _ _ _. split; [reflexivity|intros z d [=]].
Qed.
Lemma z_blocks : drawn_in_blocks y_suffix 0 [1; 3] [1; 2].
Proof.
  constructor; [|constructor; [|constructor]].
  - exists ["AAAA"]%string. split; [|reflexivity]. split; [repeat constructor; cbn; intuition discriminate|]. intros s. split.
    + intros [<-|[]]. exists 0. split; auto.
    + intros (i & L & ->). destruct i as [|i]; [cbn; auto|lia].
  - exists ["AAAB"; "AAAA"]%string. split; [|reflexivity]. split; [repeat constructor; cbn; intuition discriminate|]. intros s. split.
    + intros [<-|[<-|[]]]; [exists 0|exists 1]; split; auto.
    + intros (i & L & ->). destruct i as [|[|[|i]]]; cbn; auto; lia.
Qed.
Example C116_ex :
  files_below "/w/STRUCTURES_B4_ABCDE" (o_files (maker_run x_ops x_wy x_psize x_std poly x_dump x_app "/w" "ABCDE" y_suffix (fun _ => None) (fun _ => false))) 3.
Proof.
  destruct (@C116_ocumaker x_ops x_wy x_psize x_std poly x_dump x_app "/w" "ABCDE" y_suffix 4 (fun _ => None) (fun _ => false) sq_occ None) as (ks & js & L & B & D & H);
    try (match goal with |- forall _, _ => fail 1 | _ => reflexivity end); try exact sq_occ_new; try exact sq_fc; try exact sq_group; try exact sq_preserves; try exact z_inputs.
  { discriminate. }
  { intros [|[|k]]; reflexivity. }
  { intros p _. reflexivity. }
  { intros k _. apply (@kfold_poly [5; 5; 5; 5]%Z _ k 6%Z). repeat constructor; lia. }
  change (length ks = 2) in L. destruct ks as [|k1 [|k2 [|? ?]]]; try discriminate.
  assert (N1 : length (items (gen_nodup_of_ele poly sq_occ 5 (Z.of_nat 1) 6)) = 1) by (vm_compute; reflexivity).
  assert (N2 : length (items (gen_nodup_of_ele poly sq_occ 5 (Z.of_nat 2) 6)) = 3) by (vm_compute; reflexivity).
  assert (NG : sym_perm sq_occ <> []) by (intros Z; destruct sq_group as (_ & I & _); rewrite Z in I; destruct I).
  pose proof (z_level 1) as B1. pose proof (z_level 2) as B2. rewrite N1 in B1. rewrite N2 in B2.
  pose proof (C113_burnside_unique _ _ _ _ NG (B 0 k1 eq_refl) B1) as ->. pose proof (C113_burnside_unique _ _ _ _ NG (B 1 k2 eq_refl) B2) as ->.
  rewrite (C116_determined _ _ _ _ _ D z_blocks) in H. exact H.
Qed.
