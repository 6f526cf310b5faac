(** Properties C16-C23, C25-C27 of OccupyGenerator. *)
From Coq Require Import String.
From Verif Require Import Base BaseQ MGeneralCell SGeneralCell MComb SSubst SSym MSogen LFilter SOcc SEnum LDup LLevels LMisc LSym LSymDec LSogen.
Open Scope nat_scope.

(** C16 *)
Theorem C16_decides : forall o a b,
  (forall p, In p (sym_perm o) -> Permutation p (seq 0 (length (numbers a)))) ->
  exists r, is_equivalent o a b = Ok r /\ (r = true <-> equivalent (sym_perm o) (numbers a) (numbers b)).
Proof. intros o a b HG. exact (C16_lemma b HG eq_refl). Qed.
Print Assumptions C16_decides.

Theorem C16_equivalence : forall n G, perm_group n G ->
  (forall x : list Z, length x = n -> equivalent G x x) /\
  (forall x y : list Z, length x = n -> equivalent G x y -> equivalent G y x) /\
  (forall x y z : list Z, length x = n -> equivalent G x y -> equivalent G y z -> equivalent G x z).
Proof. exact C16_equiv. Qed.
Print Assumptions C16_equivalence.

Example C16_ex :
  perm_group 4 (sym_perm sq_occ) /\
  is_equivalent sq_occ (cellof sq_cell [6;5;5;5]%Z) (cellof sq_cell [5;5;6;5]%Z) = Ok true /\
  is_equivalent sq_occ (cellof sq_cell [6;6;5;5]%Z) (cellof sq_cell [6;5;6;5]%Z) = Ok false.
Proof. split; [exact sq_group|]. split; vm_compute; reflexivity. Qed.

(** C17 *)
Theorem C17_all_sites : forall o n sp, from_constructor (init_cell o) ->
  dup_statement o (any_site (numbers (init_cell o))) n sp (gen_dup_unitary o (Z.of_nat n) sp).
Proof. intros o n sp FC. exact (C17_unitary FC n sp). Qed.
Print Assumptions C17_all_sites.

Theorem C17_wyckoff : forall o wy n sp, from_constructor (init_cell o) ->
  length (wyckoffs o) = length (numbers (init_cell o)) ->
  dup_statement o (site_letter (wyckoffs o) wy) n sp (gen_dup o wy (Z.of_nat n) sp).
Proof. intros o wy n sp FC. exact (@C17_wy o FC wy n sp). Qed.
Print Assumptions C17_wyckoff.

Theorem C17_element : forall o ele n sp, from_constructor (init_cell o) ->
  dup_statement o (site_holds (numbers (init_cell o)) ele) n sp (gen_dup_of_ele o ele (Z.of_nat n) sp).
Proof. intros o ele n sp FC. exact (C17_ele FC ele n sp). Qed.
Print Assumptions C17_element.

Theorem C17_count : forall o n sp, from_constructor (init_cell o) ->
  length (items (gen_dup_unitary o (Z.of_nat n) sp)) = binom (length (numbers (init_cell o))) n.
Proof. exact C17_binom. Qed.
Print Assumptions C17_count.

Example C17_ex : from_constructor (init_cell sq_occ) /\
  map numbers (items (gen_dup_unitary sq_occ 2 6)) =
    [[6;6;5;5]; [6;5;6;5]; [6;5;5;6]; [5;6;6;5]; [5;6;5;6]; [5;5;6;6]]%Z.
Proof. split; [exact sq_fc|vm_compute; reflexivity]. Qed.

(** C18: any stream, any hash. *)
Theorem C18_no_two_equivalent : forall h o n dup,
  perm_group n (sym_perm o) -> (forall c, In c (items dup) -> length (numbers c) = n) ->
  subseq (items (gen_2nodup_gen h o dup)) (items dup) /\
  stop (gen_2nodup_gen h o dup) = stop dup /\
  ForallOrdPairs (fun a b => ~ equivalent (sym_perm o) (numbers a) (numbers b) /\
                             ~ equivalent (sym_perm o) (numbers b) (numbers a))
    (items (gen_2nodup_gen h o dup)).
Proof. intros h o n dup HG HL. exact (C18_lemma h HG HL). Qed.
Print Assumptions C18_no_two_equivalent.

Example C18_ex : map numbers (items (gen_2nodup_gen poly sq_occ
    (mkTrace (map (cellof sq_cell) [[6;5;5;5]; [5;6;5;5]; [6;6;5;5]; [5;5;6;6]; [6;5;5;6]]%Z) None))) =
  [[6;5;5;5]; [6;6;5;5]; [6;5;5;6]]%Z.
Proof. vm_compute. reflexivity. Qed.

(** C19 *)
Theorem C19_all_sites : forall h o n sp, from_constructor (init_cell o) ->
  perm_group (length (numbers (init_cell o))) (sym_perm o) -> preserves (sym_perm o) (numbers (init_cell o)) ->
  collision_free h (k_fold (numbers (init_cell o)) (any_site (numbers (init_cell o))) n sp) ->
  exact_enumeration o (any_site (numbers (init_cell o))) n sp (gen_nodup_unitary h o (Z.of_nat n) sp).
Proof. intros h o n sp FC HG Pr CF. exact (C19_unitary FC HG Pr CF). Qed.
Print Assumptions C19_all_sites.

Theorem C19_wyckoff : forall h o wy n sp, from_constructor (init_cell o) ->
  perm_group (length (numbers (init_cell o))) (sym_perm o) -> preserves (sym_perm o) (numbers (init_cell o)) ->
  length (wyckoffs o) = length (numbers (init_cell o)) -> preserves (sym_perm o) (wyckoffs o) ->
  collision_free h (k_fold (numbers (init_cell o)) (site_letter (wyckoffs o) wy) n sp) ->
  exact_enumeration o (site_letter (wyckoffs o) wy) n sp (gen_nodup h o wy (Z.of_nat n) sp).
Proof. intros h o wy n sp FC HG Pr LW PW CF. exact (C19_wy FC HG Pr LW PW CF). Qed.
Print Assumptions C19_wyckoff.

Theorem C19_element : forall h o ele n sp, from_constructor (init_cell o) ->
  perm_group (length (numbers (init_cell o))) (sym_perm o) -> preserves (sym_perm o) (numbers (init_cell o)) ->
  collision_free h (k_fold (numbers (init_cell o)) (site_holds (numbers (init_cell o)) ele) n sp) ->
  exact_enumeration o (site_holds (numbers (init_cell o)) ele) n sp (gen_nodup_of_ele h o ele (Z.of_nat n) sp).
Proof. intros h o ele n sp FC HG Pr CF. exact (C19_ele FC HG Pr CF). Qed.
Print Assumptions C19_element.

(** The same starting from what spglib reports: operations that are an exact space group
    of the cell and respect its species. *)
Theorem C19_from_space_group : forall h lat pos nums c ops wy o n sp,
  length pos = length nums -> GeneralCell_new lat pos nums = Ok c ->
  distinct_sites (positions c) -> exact_space_group ops (positions c) ->
  (forall o i j p q, In o ops -> nth_error (positions c) j = Some p -> nth_error (positions c) i = Some q ->
     carries o p q -> nth_error (numbers c) j = nth_error (numbers c) i) ->
  OccupyGenerator_new ops wy c = Ok o ->
  collision_free h (k_fold (numbers c) (any_site (numbers c)) n sp) ->
  exact_enumeration o (any_site (numbers c)) n sp (gen_nodup_unitary h o (Z.of_nat n) sp).
Proof. exact C19_end. Qed.
Print Assumptions C19_from_space_group.

Example C19_ex : from_constructor (init_cell sq_occ) /\ perm_group 4 (sym_perm sq_occ) /\
  preserves (sym_perm sq_occ) (numbers (init_cell sq_occ)) /\ preserves (sym_perm sq_occ) (wyckoffs sq_occ) /\
  collision_free poly (k_fold (numbers (init_cell sq_occ)) (any_site (numbers (init_cell sq_occ))) 2 6%Z) /\
  map numbers (items (gen_nodup_unitary poly sq_occ 2 6)) = [[6;6;5;5]; [6;5;6;5]; [6;5;5;6]]%Z /\
  map numbers (items (gen_nodup poly sq_occ "a" 1 6)) = [[6;5;5;5]]%Z /\
  map numbers (items (gen_nodup_of_ele poly sq_occ 5 1 6)) = [[6;5;5;5]]%Z.
Proof.
  split; [exact sq_fc|]. split; [exact sq_group|]. split; [exact sq_preserves|]. split; [exact sq_preserves_wy|].
  split; [apply kfold_poly; repeat constructor; lia|]. repeat split; vm_compute; reflexivity.
Qed.

(** C20 *)
Theorem C20_ternary : forall h o n1 n2 v1 v2, from_constructor (init_cell o) ->
  perm_group (length (numbers (init_cell o))) (sym_perm o) -> preserves (sym_perm o) (numbers (init_cell o)) ->
  collision_free h (two_fold (numbers (init_cell o)) n1 v1 n2 v2) ->
  let t := gen_nodup_trinary_alloy h o v1 (Z.of_nat n1) v2 (Z.of_nat n2) in
  stop t = None /\ Forall (same_frame (init_cell o)) (items t) /\
  transversal (equivalent (sym_perm o)) (two_fold (numbers (init_cell o)) n1 v1 n2 v2) (map numbers (items t)).
Proof. exact C20_lemma. Qed.
Print Assumptions C20_ternary.

Example C20_ex : collision_free poly (two_fold (numbers (init_cell sq_occ)) 1 6%Z 1 7%Z) /\
  map numbers (items (gen_nodup_trinary_alloy poly sq_occ 6 1 7 1)) = [[6;7;5;5]; [6;5;7;5]; [6;5;5;7]]%Z.
Proof. split; [apply two_fold_poly; repeat constructor; lia|vm_compute; reflexivity]. Qed.

(** C21-C23 *)
Theorem C21_levels : forall h o n sp, from_constructor (init_cell o) ->
  perm_group (length (numbers (init_cell o))) (sym_perm o) -> preserves (sym_perm o) (numbers (init_cell o)) ->
  (forall k, k <= Z.to_nat (n - Z.of_nat (count_occ Z.eq_dec (numbers (init_cell o)) sp)) ->
     collision_free h (k_fold (numbers (init_cell o)) (site_not (numbers (init_cell o)) sp) k sp)) ->
  level_statement o (site_not (numbers (init_cell o)) sp) n sp (all_speckle_gen_unitary h o n sp).
Proof. intros h o n sp FC HG Pr CF. exact (C21_lemma FC HG Pr CF). Qed.
Print Assumptions C21_levels.

Theorem C22_levels_wyckoff : forall h o n wy sp, from_constructor (init_cell o) ->
  perm_group (length (numbers (init_cell o))) (sym_perm o) -> preserves (sym_perm o) (numbers (init_cell o)) ->
  preserves (sym_perm o) (wyckoffs o) ->
  (forall k, k <= Z.to_nat (n - Z.of_nat (count_occ Z.eq_dec (numbers (init_cell o)) sp)) ->
     collision_free h (k_fold (numbers (init_cell o))
       (fun i => site_letter (wyckoffs o) wy i /\ site_not (numbers (init_cell o)) sp i) k sp)) ->
  level_statement o (fun i => site_letter (wyckoffs o) wy i /\ site_not (numbers (init_cell o)) sp i) n sp
    (all_speckle_gen h o n wy sp).
Proof. intros h o n wy sp FC HG Pr PW CF. exact (C22_lemma FC HG Pr PW CF). Qed.
Print Assumptions C22_levels_wyckoff.

Theorem C23_levels_element : forall h o n ele sp, from_constructor (init_cell o) ->
  perm_group (length (numbers (init_cell o))) (sym_perm o) -> preserves (sym_perm o) (numbers (init_cell o)) ->
  (forall k, k <= Z.to_nat (n - Z.of_nat (count_occ Z.eq_dec (numbers (init_cell o)) sp)) ->
     collision_free h (k_fold (numbers (init_cell o))
       (fun i => site_holds (numbers (init_cell o)) ele i /\ site_not (numbers (init_cell o)) sp i) k sp)) ->
  level_statement o (fun i => site_holds (numbers (init_cell o)) ele i /\ site_not (numbers (init_cell o)) sp i) n sp
    (all_speckle_gen_of_ele h o n ele sp).
Proof. intros h o n ele sp FC HG Pr CF. exact (C23_lemma FC HG Pr CF). Qed.
Print Assumptions C23_levels_element.

Example C21_ex :
  (forall P k, collision_free poly (k_fold (numbers (init_cell sq_occ)) P k 6%Z)) /\
  map (fun t => map numbers (items t)) (all_speckle_gen_unitary poly sq_occ 3 6) =
    [[[6;5;5;5]]; [[6;6;5;5]; [6;5;6;5]; [6;5;5;6]]; [[6;6;6;5]]]%Z.
Proof. split; [intros; apply kfold_poly; repeat constructor; lia|vm_compute; reflexivity]. Qed.
Example C22_ex : map (fun t => map numbers (items t)) (all_speckle_gen poly sq_occ 2 "a" 6) =
    [[[6;5;5;5]]; [[6;6;5;5]; [6;5;6;5]; [6;5;5;6]]]%Z.
Proof. vm_compute. reflexivity. Qed.
Example C23_ex : map (fun t => map numbers (items t)) (all_speckle_gen_of_ele poly sq_occ 2 5 6) =
    [[[6;5;5;5]]; [[6;6;5;5]; [6;5;6;5]; [6;5;5;6]]]%Z.
Proof. vm_compute. reflexivity. Qed.

(** C25: any hash, any list of permutations. *)
Theorem C25_levels : forall h o n sp k t, from_constructor (init_cell o) ->
  nth_error (all_speckle_gen_unitary h o n sp) k = Some t ->
  Forall (fun c => same_frame (init_cell o) c /\ gained (numbers (init_cell o)) sp (S k) (numbers c)) (items t).
Proof. intros h o n sp k t FC. exact (@C25_unitary h o FC n sp k t). Qed.
Print Assumptions C25_levels.
Theorem C25_levels_wyckoff : forall h o n wy sp k t, from_constructor (init_cell o) ->
  nth_error (all_speckle_gen h o n wy sp) k = Some t ->
  Forall (fun c => same_frame (init_cell o) c /\ gained (numbers (init_cell o)) sp (S k) (numbers c)) (items t).
Proof. intros h o n wy sp k t FC. exact (@C25_wy h o FC n wy sp k t). Qed.
Print Assumptions C25_levels_wyckoff.
Theorem C25_levels_element : forall h o n ele sp k t, from_constructor (init_cell o) -> ele <> sp ->
  nth_error (all_speckle_gen_of_ele h o n ele sp) k = Some t ->
  Forall (fun c => same_frame (init_cell o) c /\ swapped (numbers (init_cell o)) ele sp (S k) (numbers c)) (items t).
Proof. intros h o n ele sp k t FC. exact (@C25_ele h o FC n ele sp k t). Qed.
Print Assumptions C25_levels_element.
Theorem C25_nodup_element : forall h o ele n sp, from_constructor (init_cell o) -> ele <> sp ->
  Forall (fun c => same_frame (init_cell o) c /\ swapped (numbers (init_cell o)) ele sp n (numbers c))
    (items (gen_nodup_of_ele h o ele (Z.of_nat n) sp)).
Proof. intros h o ele n sp FC. exact (@C25_nodup_ele h o FC ele n sp). Qed.
Print Assumptions C25_nodup_element.

Example C25_ex : exists t, nth_error (all_speckle_gen_of_ele poly sq_occ 2 5 6) 1 = Some t /\
  map numbers (items t) = [[6;6;5;5]; [6;5;6;5]; [6;5;5;6]]%Z.
Proof. eexists. split; [reflexivity|vm_compute; reflexivity]. Qed.

(** C26 *)
Theorem C26_bound : forall h o n dup M, (forall x, (0 <= h x < M)%Z) -> perm_group n (sym_perm o) ->
  (forall c, In c (items dup) -> length (numbers c) = n) ->
  (Z.of_nat (length (items (gen_2nodup_gen h o dup))) <= M)%Z.
Proof. exact C26_lemma. Qed.
Print Assumptions C26_bound.
Theorem C26_not_complete : forall h o n dup M (D : list Z -> Prop) reps, (forall x, (0 <= h x < M)%Z) -> perm_group n (sym_perm o) ->
  (forall c, In c (items dup) -> length (numbers c) = n) -> (forall x, D x -> length x = n) ->
  transversal (equivalent (sym_perm o)) D reps -> (M < Z.of_nat (length reps))%Z ->
  ~ transversal (equivalent (sym_perm o)) D (map numbers (items (gen_2nodup_gen h o dup))).
Proof. exact C26_incomplete. Qed.
Print Assumptions C26_not_complete.

(** A two-valued hash: the three classes of two-fold substitutions of the example cannot
    all be found. *)
Example C26_ex : let h := fun x : list Z => (poly x mod 2)%Z in
  (forall x, (0 <= h x < 2)%Z) /\ length (items (gen_nodup_unitary poly sq_occ 2 6)) = 3 /\
  length (items (gen_nodup_unitary h sq_occ 2 6)) = 1.
Proof. split; [intros x; apply Z.mod_pos_bound; lia|split; vm_compute; reflexivity]. Qed.

(** C27 is violated: the consumer overwrites [numbers] of each structure it gets and the
    next structure it receives is equivalent to the first, although reading without
    touching gives one structure only. *)
Theorem C27_refuted : exists (h : list Z -> Z) o dup act a b,
  from_constructor (init_cell o) /\ perm_group 4 (sym_perm o) /\
  collision_free h (k_fold (numbers (init_cell o)) (any_site (numbers (init_cell o))) 1 6%Z) /\
  dup = gen_dup_unitary o 1 6%Z /\
  (forall c, act c = set_numbers c [0;0;0;0]%Z) /\
  length (items (gen_2nodup_gen h o dup)) = 1 /\
  items (gen_2nodup_gen_with h o act dup) = [a; b] ++ tl (tl (items (gen_2nodup_gen_with h o act dup))) /\
  equivalent (sym_perm o) (numbers a) (numbers b).
Proof. exact C27_witness. Qed.
Print Assumptions C27_refuted.

(** Anything the consumer does that leaves [numbers] alone is harmless. *)
Theorem C27_harmless : forall h o act dup, (forall c, numbers (act c) = numbers c) ->
  gen_2nodup_gen_with h o act dup = gen_2nodup_gen h o dup.
Proof. exact C27_harmless_lemma. Qed.
Print Assumptions C27_harmless.
