(** Properties C104 and C105: order of the enumerations, chosen representatives, and the
    agreement of the two strategies. *)
From Coq Require Import String Sorted.
From Verif Require Import Base LBase BaseQ MGeneralCell SGeneralCell LGeneralCell MComb SSubst LComb SSym LSym MSogen LFilter SOcc SEnum LDup LLevels LMisc SOrder LSort LOrder LOrder2 LOrder3 LOrder4 LOrder5 LSogen LSymDec.
Open Scope nat_scope.

(** C104: the sets of sites are tried in lexicographic order. *)
Theorem C104_tried_all : forall o n sp, from_constructor (init_cell o) ->
  in_order o sp (site_choice (any_site (numbers (init_cell o))) n) (gen_dup_unitary o (Z.of_nat n) sp).
Proof. intros o n sp FC. exact (dup_in_order FC (seq_sorted 0 _) (any_list _) (fun i H => H) n sp). Qed.
Print Assumptions C104_tried_all.

Theorem C104_tried_wyckoff : forall o wy n sp, from_constructor (init_cell o) ->
  length (wyckoffs o) = length (numbers (init_cell o)) ->
  in_order o sp (site_choice (site_letter (wyckoffs o) wy) n) (gen_dup o wy (Z.of_nat n) sp).
Proof.
  intros o wy n sp FC LW.
  exact (dup_in_order FC (sp_ind_sorted (fun w => String.eqb w wy) (wyckoffs o)) (letter_list _ _) (fun i => letter_lt LW (i := i)) n sp).
Qed.
Print Assumptions C104_tried_wyckoff.

Theorem C104_tried_element : forall o ele n sp, from_constructor (init_cell o) ->
  in_order o sp (site_choice (site_holds (numbers (init_cell o)) ele) n) (gen_dup_of_ele o ele (Z.of_nat n) sp).
Proof.
  intros o ele n sp FC.
  exact (dup_in_order FC (sp_ind_sorted (fun e => Z.eqb e ele) (numbers (init_cell o))) (holds_list _ _) (fun i => holds_lt (i := i)) n sp).
Qed.
Print Assumptions C104_tried_element.

Theorem C104_tried_ternary : forall o n1 n2 v1 v2, from_constructor (init_cell o) ->
  in_order2 o v1 v2 (pair_choice (any_site (numbers (init_cell o))) n1 n2) (gen_dup_trinary_alloy o v1 (Z.of_nat n1) v2 (Z.of_nat n2)).
Proof. intros o n1 n2 v1 v2 FC. exact (tern_dup n1 n2 v1 v2 FC). Qed.
Print Assumptions C104_tried_ternary.

(** The filter keeps of every class the member that came first, whatever the stream. *)
Theorem C104_filter : forall h o n (D : list Z -> Prop) (dup : trace gcell), perm_group n (sym_perm o) ->
  (forall x, D x -> length x = n) -> (forall x y, D x -> equivalent (sym_perm o) x y -> D y) -> collision_free h D ->
  (forall c, In c (items dup) -> D (numbers c)) ->
  stop (gen_2nodup_gen h o dup) = stop dup /\
  firsts (fun a b => equivalent (sym_perm o) (numbers a) (numbers b)) [] (items dup) (items (gen_2nodup_gen h o dup)).
Proof. intros h o n D dup HG DL DC CF HD. destruct (filter_firsts HG DL DC CF HD) as [out [E F]]. rewrite E. auto. Qed.
Print Assumptions C104_filter.

(** So every class is represented by its lexicographically first set, and the
    representatives are listed in lexicographic order. *)
Theorem C104_leaders_all : forall h o n sp, from_constructor (init_cell o) ->
  perm_group (length (numbers (init_cell o))) (sym_perm o) -> preserves (sym_perm o) (numbers (init_cell o)) ->
  collision_free h (k_fold (numbers (init_cell o)) (any_site (numbers (init_cell o))) n sp) ->
  in_order o sp (leader (sym_perm o) (numbers (init_cell o)) (any_site (numbers (init_cell o))) n sp) (gen_nodup_unitary h o (Z.of_nat n) sp).
Proof.
  intros h o n sp FC HG Pr CF.
  exact (nodup_in_order FC (seq_sorted 0 _) (any_list _) (fun i H => H) HG Pr (inv_any HG eq_refl) CF).
Qed.
Print Assumptions C104_leaders_all.

Theorem C104_leaders_wyckoff : forall h o wy n sp, from_constructor (init_cell o) ->
  perm_group (length (numbers (init_cell o))) (sym_perm o) -> preserves (sym_perm o) (numbers (init_cell o)) ->
  length (wyckoffs o) = length (numbers (init_cell o)) -> preserves (sym_perm o) (wyckoffs o) ->
  collision_free h (k_fold (numbers (init_cell o)) (site_letter (wyckoffs o) wy) n sp) ->
  in_order o sp (leader (sym_perm o) (numbers (init_cell o)) (site_letter (wyckoffs o) wy) n sp) (gen_nodup h o wy (Z.of_nat n) sp).
Proof.
  intros h o wy n sp FC HG Pr LW PW CF.
  exact (nodup_in_order FC (sp_ind_sorted (fun w => String.eqb w wy) (wyckoffs o)) (letter_list _ _) (fun i => letter_lt LW (i := i))
    HG Pr (inv_letter _ PW) CF).
Qed.
Print Assumptions C104_leaders_wyckoff.

Theorem C104_leaders_element : forall h o ele n sp, from_constructor (init_cell o) ->
  perm_group (length (numbers (init_cell o))) (sym_perm o) -> preserves (sym_perm o) (numbers (init_cell o)) ->
  collision_free h (k_fold (numbers (init_cell o)) (site_holds (numbers (init_cell o)) ele) n sp) ->
  in_order o sp (leader (sym_perm o) (numbers (init_cell o)) (site_holds (numbers (init_cell o)) ele) n sp) (gen_nodup_of_ele h o ele (Z.of_nat n) sp).
Proof.
  intros h o ele n sp FC HG Pr CF.
  exact (nodup_in_order FC (sp_ind_sorted (fun e => Z.eqb e ele) (numbers (init_cell o))) (holds_list _ _) (fun i => holds_lt (i := i))
    HG Pr (inv_holds _ Pr) CF).
Qed.
Print Assumptions C104_leaders_element.

Theorem C104_leaders_ternary : forall h o n1 n2 v1 v2, from_constructor (init_cell o) ->
  perm_group (length (numbers (init_cell o))) (sym_perm o) -> preserves (sym_perm o) (numbers (init_cell o)) ->
  collision_free h (two_fold (numbers (init_cell o)) n1 v1 n2 v2) ->
  in_order2 o v1 v2 (leader2 (sym_perm o) (numbers (init_cell o)) (any_site (numbers (init_cell o))) n1 n2 v1 v2)
    (gen_nodup_trinary_alloy h o v1 (Z.of_nat n1) v2 (Z.of_nat n2)).
Proof. intros h o n1 n2 v1 v2 FC HG Pr CF. exact (tern_nodup FC HG Pr CF). Qed.
Print Assumptions C104_leaders_ternary.

(** These descriptions leave no freedom: the whole output is determined. *)
Theorem C104_determined : forall o v Q t t', in_order o v Q t -> in_order o v Q t' -> t = t'.
Proof. intros o v Q t t'. exact (in_order_unique (fun S => iff_refl _)). Qed.
Print Assumptions C104_determined.
Theorem C104_determined_ternary : forall o v1 v2 Q t t', in_order2 o v1 v2 Q t -> in_order2 o v1 v2 Q t' -> t = t'.
Proof. intros o v1 v2 Q t t'. exact (@in_order2_unique o v1 v2 Q t t'). Qed.
Print Assumptions C104_determined_ternary.

(** On the square, {0,1} and {0,2} lead their classes, {2,3} does not. *)
Example C104_ex : from_constructor (init_cell sq_occ) /\ perm_group 4 (sym_perm sq_occ) /\
  collision_free poly (k_fold (numbers (init_cell sq_occ)) (any_site (numbers (init_cell sq_occ))) 2 6%Z) /\
  map numbers (items (gen_nodup_unitary poly sq_occ 2 6)) = [[6;6;5;5]; [6;5;6;5]; [6;5;5;6]]%Z /\
  before [0;1] [0;2] /\ before [0;2] [0;3] /\
  ~ leader (sym_perm sq_occ) (numbers (init_cell sq_occ)) (any_site (numbers (init_cell sq_occ))) 2 6%Z [2;3].
Proof.
  split; [exact sq_fc|]. split; [exact sq_group|]. split; [apply kfold_poly; repeat constructor; lia|].
  split; [vm_compute; reflexivity|]. split; [apply before_tail, before_head; lia|]. split; [apply before_tail, before_head; lia|].
  intros [_ H]. assert (C : site_choice (any_site (numbers (init_cell sq_occ))) 2 [0;1]).
  { split; [repeat constructor; lia|]. split; [reflexivity|]. repeat constructor; unfold any_site; cbn; lia. }
  apply (H [0;1] [6;6;5;5]%Z [5;5;6;6]%Z C).
  - apply (@puts_substituted [5;5;5;5]%Z [0;1] 6%Z). intros i [<-|[<-|[]]]; cbn; lia.
  - apply (@puts_substituted [5;5;5;5]%Z [2;3] 6%Z). intros i [<-|[<-|[]]]; cbn; lia.
  - exists [2;3;0;1]. split; [cbn; tauto|]. apply take_idx_reordered. reflexivity.
  - apply before_head. lia.
Qed.

(** C105: level by level, the same sets in the same order. *)
Theorem C105_levels : forall h o n sp, from_constructor (init_cell o) ->
  perm_group (length (numbers (init_cell o))) (sym_perm o) -> preserves (sym_perm o) (numbers (init_cell o)) ->
  (forall k, k <= Z.to_nat (n - Z.of_nat (count_occ Z.eq_dec (numbers (init_cell o)) sp)) ->
     collision_free h (k_fold (numbers (init_cell o)) (site_not (numbers (init_cell o)) sp) k sp)) ->
  forall k t, nth_error (all_speckle_gen_unitary h o n sp) k = Some t ->
  in_order o sp (leader (sym_perm o) (numbers (init_cell o)) (site_not (numbers (init_cell o)) sp) (S k) sp) t.
Proof.
  intros h o n sp FC HG Pr CF k t E.
  destruct (@site_list (site_not (numbers (init_cell o)) sp) (not_b (numbers (init_cell o)) sp) (length (numbers (init_cell o)))) as [ST PT].
  { intros i. rewrite not_b_ok. split; [intros H; split; [exact (site_not_lt H)|exact H]|tauto]. }
  apply (@levels_in_order o (P_unitary o sp) sp (cond_unitary sp) h _ FC (PN_unitary (sp := sp)) (@CO_unitary o sp) HG Pr (inv_not _ Pr) ST PT _) with (2 := E).
  intros m Hm. apply CF. unfold num_levels in Hm. rewrite get_speckle_num_spec in Hm. exact Hm.
Qed.
Print Assumptions C105_levels.

Theorem C105_levels_wyckoff : forall h o n wy sp, from_constructor (init_cell o) ->
  perm_group (length (numbers (init_cell o))) (sym_perm o) -> preserves (sym_perm o) (numbers (init_cell o)) ->
  preserves (sym_perm o) (wyckoffs o) ->
  (forall k, k <= Z.to_nat (n - Z.of_nat (count_occ Z.eq_dec (numbers (init_cell o)) sp)) ->
     collision_free h (k_fold (numbers (init_cell o)) (fun i => site_letter (wyckoffs o) wy i /\ site_not (numbers (init_cell o)) sp i) k sp)) ->
  forall k t, nth_error (all_speckle_gen h o n wy sp) k = Some t ->
  in_order o sp (leader (sym_perm o) (numbers (init_cell o))
    (fun i => site_letter (wyckoffs o) wy i /\ site_not (numbers (init_cell o)) sp i) (S k) sp) t.
Proof.
  intros h o n wy sp FC HG Pr PW CF k t E.
  destruct (@site_list (P_wy o wy sp) (fun i => match nth_error (wyckoffs o) i with Some w => String.eqb w wy | None => false end && not_b (numbers (init_cell o)) sp i)
    (length (numbers (init_cell o)))) as [ST PT].
  { intros i. rewrite andb_true_iff, not_b_ok. unfold P_wy, site_letter.
    assert (W : nth_error (wyckoffs o) i = Some wy <-> match nth_error (wyckoffs o) i with Some w => String.eqb w wy | None => false end = true).
    { destruct (nth_error (wyckoffs o) i) as [w|]; [rewrite String.eqb_eq|]; split; congruence. }
    rewrite W. split; [intros [H1 H2]; split; [exact (site_not_lt H2)|tauto]|tauto]. }
  apply (@levels_in_order o (P_wy o wy sp) sp (cond_wy o wy sp) h _ FC (@PN_wy o wy sp) (@CO_wy o wy sp) HG Pr (inv_and (inv_letter _ PW) (inv_not _ Pr)) ST PT _) with (2 := E).
  intros m Hm. apply CF. unfold num_levels in Hm. rewrite get_speckle_num_spec in Hm. exact Hm.
Qed.
Print Assumptions C105_levels_wyckoff.

Theorem C105_levels_element : forall h o n ele sp, from_constructor (init_cell o) ->
  perm_group (length (numbers (init_cell o))) (sym_perm o) -> preserves (sym_perm o) (numbers (init_cell o)) ->
  (forall k, k <= Z.to_nat (n - Z.of_nat (count_occ Z.eq_dec (numbers (init_cell o)) sp)) ->
     collision_free h (k_fold (numbers (init_cell o)) (fun i => site_holds (numbers (init_cell o)) ele i /\ site_not (numbers (init_cell o)) sp i) k sp)) ->
  forall k t, nth_error (all_speckle_gen_of_ele h o n ele sp) k = Some t ->
  in_order o sp (leader (sym_perm o) (numbers (init_cell o))
    (fun i => site_holds (numbers (init_cell o)) ele i /\ site_not (numbers (init_cell o)) sp i) (S k) sp) t.
Proof.
  intros h o n ele sp FC HG Pr CF k t E.
  destruct (@site_list (P_ele o ele sp) (fun i => match nth_error (numbers (init_cell o)) i with Some w => Z.eqb w ele | None => false end && not_b (numbers (init_cell o)) sp i)
    (length (numbers (init_cell o)))) as [ST PT].
  { intros i. rewrite andb_true_iff, not_b_ok. unfold P_ele, site_holds.
    assert (W : nth_error (numbers (init_cell o)) i = Some ele <-> match nth_error (numbers (init_cell o)) i with Some w => Z.eqb w ele | None => false end = true).
    { destruct (nth_error (numbers (init_cell o)) i) as [w|]; [rewrite Z.eqb_eq|]; split; congruence. }
    rewrite W. split; [intros [H1 H2]; split; [exact (site_not_lt H2)|tauto]|tauto]. }
  apply (@levels_in_order o (P_ele o ele sp) sp (cond_ele ele sp) h _ FC (@PN_ele o ele sp) (@CO_ele o ele sp) HG Pr (inv_and (inv_holds _ Pr) (inv_not _ Pr)) ST PT _) with (2 := E).
  intros m Hm. apply CF. unfold num_levels in Hm. rewrite get_speckle_num_spec in Hm. exact Hm.
Qed.
Print Assumptions C105_levels_element.

(** Hence a level is, cell for cell, the list that the one-step enumeration gives. *)
Theorem C105_same_all : forall h o n sp, from_constructor (init_cell o) ->
  perm_group (length (numbers (init_cell o))) (sym_perm o) -> preserves (sym_perm o) (numbers (init_cell o)) ->
  ~ In sp (numbers (init_cell o)) ->
  (forall k, k <= Z.to_nat n -> collision_free h (k_fold (numbers (init_cell o)) (any_site (numbers (init_cell o))) k sp)) ->
  forall k t, nth_error (all_speckle_gen_unitary h o n sp) k = Some t -> t = gen_nodup_unitary h o (Z.of_nat (S k)) sp.
Proof.
  intros h o n sp FC HG Pr N CF k t E.
  assert (EP : forall i, site_not (numbers (init_cell o)) sp i <-> any_site (numbers (init_cell o)) i).
  { intros i. split; [apply site_not_lt|]. intros L. destruct (nth_error (numbers (init_cell o)) i) as [a|] eqn:Ea; [|apply nth_error_None in Ea; unfold any_site in L; lia].
    exists a. split; [exact Ea|]. intros ->. apply N. apply (nth_error_In _ _ Ea). }
  assert (C0 : count_occ Z.eq_dec (numbers (init_cell o)) sp = 0) by now apply count_occ_not_In.
  pose proof (level_count E) as LC. rewrite C0, Z.sub_0_r in LC.
  refine (in_order_unique (fun S => leader_ext _ _ _ _ _ EP) (C105_levels h o n sp FC HG Pr _ k t E) (C104_leaders_all h o (S k) sp FC HG Pr (CF _ LC))).
  rewrite C0, Z.sub_0_r. intros m Hm x y Hx Hy. apply (CF m Hm).
  - destruct Hx as [Sx [[A [B F]] Hx]]. exists Sx. split; [split; [exact A|split; [exact B|intros i Hi; apply (proj1 (EP i)); auto]]|exact Hx].
  - destruct Hy as [Sx [[A [B F]] Hy]]. exists Sx. split; [split; [exact A|split; [exact B|intros i Hi; apply (proj1 (EP i)); auto]]|exact Hy].
Qed.
Print Assumptions C105_same_all.

Theorem C105_same_wyckoff : forall h o n wy sp, from_constructor (init_cell o) ->
  perm_group (length (numbers (init_cell o))) (sym_perm o) -> preserves (sym_perm o) (numbers (init_cell o)) ->
  length (wyckoffs o) = length (numbers (init_cell o)) -> preserves (sym_perm o) (wyckoffs o) ->
  ~ In sp (numbers (init_cell o)) ->
  (forall k, k <= Z.to_nat n -> collision_free h (k_fold (numbers (init_cell o)) (site_letter (wyckoffs o) wy) k sp)) ->
  forall k t, nth_error (all_speckle_gen h o n wy sp) k = Some t -> t = gen_nodup h o wy (Z.of_nat (S k)) sp.
Proof.
  intros h o n wy sp FC HG Pr LW PW N CF k t E.
  assert (EP : forall i, (site_letter (wyckoffs o) wy i /\ site_not (numbers (init_cell o)) sp i) <-> site_letter (wyckoffs o) wy i).
  { intros i. split; [tauto|]. intros L. split; [exact L|]. pose proof (letter_lt LW L) as Li.
    destruct (nth_error (numbers (init_cell o)) i) as [a|] eqn:Ea; [|apply nth_error_None in Ea; lia].
    exists a. split; [exact Ea|]. intros ->. apply N. apply (nth_error_In _ _ Ea). }
  assert (C0 : count_occ Z.eq_dec (numbers (init_cell o)) sp = 0) by now apply count_occ_not_In.
  pose proof (level_count E) as LC. rewrite C0, Z.sub_0_r in LC.
  refine (in_order_unique (fun S => leader_ext _ _ _ _ _ EP) (C105_levels_wyckoff h o n wy sp FC HG Pr PW _ k t E)
    (C104_leaders_wyckoff h o wy (S k) sp FC HG Pr LW PW (CF _ LC))).
  rewrite C0, Z.sub_0_r. intros m Hm x y Hx Hy. apply (CF m Hm).
  - destruct Hx as [Sx [[A [B F]] Hx]]. exists Sx. split; [split; [exact A|split; [exact B|intros i Hi; apply (proj1 (EP i)); auto]]|exact Hx].
  - destruct Hy as [Sx [[A [B F]] Hy]]. exists Sx. split; [split; [exact A|split; [exact B|intros i Hi; apply (proj1 (EP i)); auto]]|exact Hy].
Qed.
Print Assumptions C105_same_wyckoff.

Theorem C105_same_element : forall h o n ele sp, from_constructor (init_cell o) ->
  perm_group (length (numbers (init_cell o))) (sym_perm o) -> preserves (sym_perm o) (numbers (init_cell o)) ->
  ele <> sp ->
  (forall k, k <= Z.to_nat (n - Z.of_nat (count_occ Z.eq_dec (numbers (init_cell o)) sp)) ->
     collision_free h (k_fold (numbers (init_cell o)) (site_holds (numbers (init_cell o)) ele) k sp)) ->
  forall k t, nth_error (all_speckle_gen_of_ele h o n ele sp) k = Some t -> t = gen_nodup_of_ele h o ele (Z.of_nat (S k)) sp.
Proof.
  intros h o n ele sp FC HG Pr N CF k t E.
  assert (EP : forall i, (site_holds (numbers (init_cell o)) ele i /\ site_not (numbers (init_cell o)) sp i) <-> site_holds (numbers (init_cell o)) ele i).
  { intros i. split; [tauto|]. intros L. split; [exact L|]. exists ele. split; [exact L|exact N]. }
  pose proof (level_count E) as LC.
  refine (in_order_unique (fun S => leader_ext _ _ _ _ _ EP) (C105_levels_element h o n ele sp FC HG Pr _ k t E)
    (C104_leaders_element h o ele (S k) sp FC HG Pr (CF _ LC))).
  intros m Hm x y Hx Hy. apply (CF m Hm).
  - destruct Hx as [Sx [[A [B F]] Hx]]. exists Sx. split; [split; [exact A|split; [exact B|intros i Hi; apply (proj1 (EP i)); auto]]|exact Hx].
  - destruct Hy as [Sx [[A [B F]] Hy]]. exists Sx. split; [split; [exact A|split; [exact B|intros i Hi; apply (proj1 (EP i)); auto]]|exact Hy].
Qed.
Print Assumptions C105_same_element.

Example C105_ex : from_constructor (init_cell sq_occ) /\ perm_group 4 (sym_perm sq_occ) /\
  preserves (sym_perm sq_occ) (numbers (init_cell sq_occ)) /\ ~ In 6%Z (numbers (init_cell sq_occ)) /\
  (forall k, k <= 3 -> collision_free poly (k_fold (numbers (init_cell sq_occ)) (any_site (numbers (init_cell sq_occ))) k 6%Z)) /\
  map (fun t => map numbers (items t)) (all_speckle_gen_unitary poly sq_occ 3 6) =
    [[[6;5;5;5]]; [[6;6;5;5]; [6;5;6;5]; [6;5;5;6]]; [[6;6;6;5]]]%Z.
Proof.
  split; [exact sq_fc|]. split; [exact sq_group|]. split; [exact sq_preserves|].
  split; [cbn; intros [K|[K|[K|[K|[]]]]]; discriminate|]. split; [|vm_compute; reflexivity].
  intros k _. apply kfold_poly; repeat constructor; lia.
Qed.
