(** Statements for the property files: gathering the lemmas about OccupyGenerator. *)
From Coq Require Import String.
From Verif Require Import Base LBase BaseQ MGeneralCell SGeneralCell LGeneralCell MComb SSubst LComb SSym LSym MSogen LFilter SOcc SEnum LDup LLevels LMisc MTee STee LTee LSymDec LPermDec.
Set Implicit Arguments.
Unset Strict Implicit.
Open Scope nat_scope.

Lemma any_lt o i : any_site (numbers (init_cell o)) i -> i < length (numbers (init_cell o)).
Proof. auto. Qed.
Lemma holds_lt init e i : site_holds init e i -> i < length init.
Proof. intros H. apply nth_error_Some. unfold site_holds in H. congruence. Qed.
Lemma letter_lt o w i : length (wyckoffs o) = length (numbers (init_cell o)) -> site_letter (wyckoffs o) w i -> i < length (numbers (init_cell o)).
Proof. intros <- H. apply nth_error_Some. unfold site_letter in H. congruence. Qed.

Section S.
Context (h : list Z -> Z) (o : occ).
Hypothesis FC : from_constructor (init_cell o).
Hypothesis HG : perm_group (length (numbers (init_cell o))) (sym_perm o).
Hypothesis Pr : preserves (sym_perm o) (numbers (init_cell o)).

Lemma C19_unitary n sp : collision_free h (k_fold (numbers (init_cell o)) (any_site (numbers (init_cell o))) n sp) ->
  exact_enumeration o (any_site (numbers (init_cell o))) n sp (gen_nodup_unitary h o (Z.of_nat n) sp).
Proof.
  intros CF. apply C19_generic; auto.
  - now apply inv_any with (n := length (numbers (init_cell o))).
  - now apply C17_unitary.
Qed.
Lemma C19_ele ele n sp : collision_free h (k_fold (numbers (init_cell o)) (site_holds (numbers (init_cell o)) ele) n sp) ->
  exact_enumeration o (site_holds (numbers (init_cell o)) ele) n sp (gen_nodup_of_ele h o ele (Z.of_nat n) sp).
Proof.
  intros CF. apply C19_generic; auto.
  - now apply inv_holds.
  - intros i. apply holds_lt.
  - now apply C17_ele.
Qed.
Lemma C19_wy wy n sp : length (wyckoffs o) = length (numbers (init_cell o)) -> preserves (sym_perm o) (wyckoffs o) ->
  collision_free h (k_fold (numbers (init_cell o)) (site_letter (wyckoffs o) wy) n sp) ->
  exact_enumeration o (site_letter (wyckoffs o) wy) n sp (gen_nodup h o wy (Z.of_nat n) sp).
Proof.
  intros LW PW CF. apply C19_generic; auto.
  - now apply inv_letter.
  - intros i. now apply letter_lt.
  - now apply C17_wy.
Qed.

Lemma C21_lemma n sp :
  (forall k, k <= Z.to_nat (n - Z.of_nat (count_occ Z.eq_dec (numbers (init_cell o)) sp)) ->
     collision_free h (k_fold (numbers (init_cell o)) (site_not (numbers (init_cell o)) sp) k sp)) ->
  level_statement o (site_not (numbers (init_cell o)) sp) n sp (all_speckle_gen_unitary h o n sp).
Proof.
  intros CF. apply (@level_final h o (P_unitary o sp) sp (cond_unitary sp)); auto.
  - apply CO_unitary.
  - now apply inv_not.
Qed.
Lemma C22_lemma n wy sp : preserves (sym_perm o) (wyckoffs o) ->
  (forall k, k <= Z.to_nat (n - Z.of_nat (count_occ Z.eq_dec (numbers (init_cell o)) sp)) ->
     collision_free h (k_fold (numbers (init_cell o)) (fun i => site_letter (wyckoffs o) wy i /\ site_not (numbers (init_cell o)) sp i) k sp)) ->
  level_statement o (fun i => site_letter (wyckoffs o) wy i /\ site_not (numbers (init_cell o)) sp i) n sp (all_speckle_gen h o n wy sp).
Proof.
  intros PW CF. apply (@level_final h o (P_wy o wy sp) sp (cond_wy o wy sp)); auto.
  - apply PN_wy.
  - apply CO_wy.
  - apply inv_and; [now apply inv_letter|now apply inv_not].
Qed.
Lemma C23_lemma n ele sp :
  (forall k, k <= Z.to_nat (n - Z.of_nat (count_occ Z.eq_dec (numbers (init_cell o)) sp)) ->
     collision_free h (k_fold (numbers (init_cell o)) (fun i => site_holds (numbers (init_cell o)) ele i /\ site_not (numbers (init_cell o)) sp i) k sp)) ->
  level_statement o (fun i => site_holds (numbers (init_cell o)) ele i /\ site_not (numbers (init_cell o)) sp i) n sp (all_speckle_gen_of_ele h o n ele sp).
Proof.
  intros CF. apply (@level_final h o (P_ele o ele sp) sp (cond_ele ele sp)); auto.
  - apply PN_ele.
  - apply CO_ele.
  - apply inv_and; [now apply inv_holds|now apply inv_not].
Qed.
End S.

(** C25 *)
Section C25.
Context (h : list Z -> Z) (o : occ).
Hypothesis FC : from_constructor (init_cell o).
Let init := numbers (init_cell o).
Lemma C25_unitary n sp k t : nth_error (all_speckle_gen_unitary h o n sp) k = Some t ->
  Forall (fun c => same_frame (init_cell o) c /\ gained init sp (S k) (numbers c)) (items t).
Proof.
  intros E. destruct (@level_sound_final h o (P_unitary o sp) sp (cond_unitary sp) FC (@PN_unitary o sp) (@CO_unitary o sp) _ k t E) as [F1 F2].
  rewrite Forall_forall in *. intros c Hc. split; [auto|].
  destruct (kfold_counts (@PN_unitary o sp) (F2 c Hc)) as [C1 [C2 _]]. split; [apply (kfold_length (F2 c Hc))|]. auto.
Qed.
Lemma C25_wy n wy sp k t : nth_error (all_speckle_gen h o n wy sp) k = Some t ->
  Forall (fun c => same_frame (init_cell o) c /\ gained init sp (S k) (numbers c)) (items t).
Proof.
  intros E. destruct (@level_sound_final h o (P_wy o wy sp) sp (cond_wy o wy sp) FC (@PN_wy o wy sp) (@CO_wy o wy sp) _ k t E) as [F1 F2].
  rewrite Forall_forall in *. intros c Hc. split; [auto|].
  destruct (kfold_counts (@PN_wy o wy sp) (F2 c Hc)) as [C1 [C2 _]]. split; [apply (kfold_length (F2 c Hc))|]. auto.
Qed.
Lemma ele_swapped ele sp k x : ele <> sp -> k_fold init (P_ele o ele sp) k sp x -> swapped init ele sp k x.
Proof.
  intros N H. destruct (kfold_counts (@PN_ele o ele sp) H) as [C1 [_ [C3 C4]]]. split; [exact C1|]. split.
  - apply C3; [|congruence]. intros i [K _]. exact K.
  - intros w W1 W2. apply C4; [assumption|]. intros i [K _] K'. unfold site_holds in *. congruence.
Qed.
Lemma C25_ele n ele sp k t : ele <> sp -> nth_error (all_speckle_gen_of_ele h o n ele sp) k = Some t ->
  Forall (fun c => same_frame (init_cell o) c /\ swapped init ele sp (S k) (numbers c)) (items t).
Proof.
  intros N E. destruct (@level_sound_final h o (P_ele o ele sp) sp (cond_ele ele sp) FC (@PN_ele o ele sp) (@CO_ele o ele sp) _ k t E) as [F1 F2].
  rewrite Forall_forall in *. intros c Hc. split; [auto|]. apply ele_swapped; [assumption|]. apply F2. exact Hc.
Qed.
Lemma C25_nodup_ele ele n sp : ele <> sp ->
  Forall (fun c => same_frame (init_cell o) c /\ swapped init ele sp n (numbers c)) (items (gen_nodup_of_ele h o ele (Z.of_nat n) sp)).
Proof.
  intros N. apply Forall_forall. intros c Hc. unfold gen_nodup_of_ele, gen_2nodup_gen, gen_2nodup_gen_with in Hc.
  apply (subseq_incl (nodup_loop_subseq h (sym_perm o) (fun c => c) [] (items (gen_dup_of_ele o ele (Z.of_nat n) sp)) (stop (gen_dup_of_ele o ele (Z.of_nat n) sp)))) in Hc.
  pose proof (C17_ele FC ele n sp) as D. destruct (dup_numbers (fun i => @holds_lt init ele i) D) as [D1 _].
  split.
  - destruct D as [Ss [_ [_ F]]]. clear - F Hc. induction F as [|S d Ss l [Hf _] F IH]; [easy|]. destruct Hc as [<-|Hc]; auto.
  - apply ele_swapped; [assumption|]. destruct (D1 c Hc) as [S [[ND [L HS]] Sub]]. exists S. split; [|exact Sub].
    split; [exact ND|]. split; [exact L|]. intros i Hi. split; [apply HS, Hi|]. exists ele. split; [apply HS, Hi|assumption].
Qed.
End C25.

Lemma C24_unitary h o n sp calls : from_constructor (init_cell o) ->
  (forall p, In p (sym_perm o) -> Permutation p (seq 0 (length (numbers (init_cell o))))) ->
  well_formed (length (all_speckle_gen_unitary h o n sp)) calls ->
  exists F, forall fuel, F <= fuel -> exists ans, session_unitary h o n sp fuel calls = Some ans /\
    right_answers (map (@items gcell) (all_speckle_gen_unitary h o n sp)) calls ans.
Proof. intros FC HP WF. unfold all_speckle_gen_unitary in WF. rewrite levels_length in WF. now apply C24_generic. Qed.
Lemma C24_wy h o n wy sp calls : from_constructor (init_cell o) ->
  (forall p, In p (sym_perm o) -> Permutation p (seq 0 (length (numbers (init_cell o))))) ->
  well_formed (length (all_speckle_gen h o n wy sp)) calls ->
  exists F, forall fuel, F <= fuel -> exists ans, session_wy h o n wy sp fuel calls = Some ans /\
    right_answers (map (@items gcell) (all_speckle_gen h o n wy sp)) calls ans.
Proof. intros FC HP WF. unfold all_speckle_gen in WF. rewrite levels_length in WF. now apply C24_generic. Qed.
Lemma C24_ele h o n ele sp calls : from_constructor (init_cell o) ->
  (forall p, In p (sym_perm o) -> Permutation p (seq 0 (length (numbers (init_cell o))))) ->
  well_formed (length (all_speckle_gen_of_ele h o n ele sp)) calls ->
  exists F, forall fuel, F <= fuel -> exists ans, session_ele h o n ele sp fuel calls = Some ans /\
    right_answers (map (@items gcell) (all_speckle_gen_of_ele h o n ele sp)) calls ans.
Proof. intros FC HP WF. unfold all_speckle_gen_of_ele in WF. rewrite levels_length in WF. now apply C24_generic. Qed.

(** C19 from the operations reported by spglib. *)
Lemma end_to_end lat pos nums c ops wy o : length pos = length nums -> GeneralCell_new lat pos nums = Ok c ->
  distinct_sites (positions c) -> exact_space_group ops (positions c) ->
  (forall o i j p q, In o ops -> nth_error (positions c) j = Some p -> nth_error (positions c) i = Some q ->
     carries o p q -> nth_error (numbers c) j = nth_error (numbers c) i) ->
  OccupyGenerator_new ops wy c = Ok o ->
  init_cell o = c /\ from_constructor (init_cell o) /\
  perm_group (length (numbers (init_cell o))) (sym_perm o) /\ preserves (sym_perm o) (numbers (init_cell o)).
Proof.
  intros L H D X S E. unfold OccupyGenerator_new in E. destruct (get_symmetry_permutation ops c) as [perms|] eqn:EP; [|discriminate].
  cbn in E. injection E as <-. cbn. split; [reflexivity|]. assert (FC : from_constructor c) by (exists lat, pos, nums; auto).
  split; [assumption|]. destruct (from_constructor_facts FC) as [C [_ [LE _]]]. split.
  - rewrite <- LE. eapply C14_exact; eauto.
  - refine (C14_preserves_new L H D _ S EP). intros o Ho. exact (exact_maps_sites (proj1 (distinct_keys _) D) X Ho).
Qed.
Lemma C19_end h lat pos nums c ops wy o n sp : length pos = length nums -> GeneralCell_new lat pos nums = Ok c ->
  distinct_sites (positions c) -> exact_space_group ops (positions c) ->
  (forall o i j p q, In o ops -> nth_error (positions c) j = Some p -> nth_error (positions c) i = Some q ->
     carries o p q -> nth_error (numbers c) j = nth_error (numbers c) i) ->
  OccupyGenerator_new ops wy c = Ok o ->
  collision_free h (k_fold (numbers c) (any_site (numbers c)) n sp) ->
  exact_enumeration o (any_site (numbers c)) n sp (gen_nodup_unitary h o (Z.of_nat n) sp).
Proof.
  intros L H D X S E CF. destruct (end_to_end L H D X S E) as [<- [FC [HG Pr]]]. now apply C19_unitary.
Qed.

(** C27 *)
Lemma C27_witness : exists (h : list Z -> Z) o dup act a b,
  from_constructor (init_cell o) /\ perm_group 4 (sym_perm o) /\
  collision_free h (k_fold (numbers (init_cell o)) (any_site (numbers (init_cell o))) 1 6%Z) /\
  dup = gen_dup_unitary o 1 6%Z /\
  (forall c, act c = set_numbers c [0;0;0;0]%Z) /\
  length (items (gen_2nodup_gen h o dup)) = 1 /\
  items (gen_2nodup_gen_with h o act dup) = [a; b] ++ tl (tl (items (gen_2nodup_gen_with h o act dup))) /\
  equivalent (sym_perm o) (numbers a) (numbers b).
Proof.
  exists poly, sq_occ, (gen_dup_unitary sq_occ 1 6%Z), (fun c => set_numbers c [0;0;0;0]%Z),
    (mkG sq_lat sq_pos [6;5;5;5]%Z (sq_lat, sq_pos, [6;5;5;5]%Z) 4), (mkG sq_lat sq_pos [5;6;5;5]%Z (sq_lat, sq_pos, [5;6;5;5]%Z) 4).
  split; [exact sq_fc|]. split; [exact sq_group|]. split; [apply kfold_poly; repeat constructor; lia|].
  split; [reflexivity|]. split; [reflexivity|]. split; [vm_compute; reflexivity|]. split; [vm_compute; reflexivity|].
  exists [1;0;3;2]. split; [cbn; auto|]. repeat constructor.
Qed.

Lemma C16_equiv n G : perm_group n G ->
  (forall x : list Z, length x = n -> equivalent G x x) /\
  (forall x y : list Z, length x = n -> equivalent G x y -> equivalent G y x) /\
  (forall x y z : list Z, length x = n -> equivalent G x y -> equivalent G y z -> equivalent G x z).
Proof.
  intros HG. split; [|split].
  - intros x. apply (equivalent_refl HG).
  - intros x y. apply (equivalent_sym HG).
  - intros x y z. apply (equivalent_trans HG).
Qed.
Lemma C17_binom o n sp : from_constructor (init_cell o) ->
  length (items (gen_dup_unitary o (Z.of_nat n) sp)) = binom (length (numbers (init_cell o))) n.
Proof.
  intros FC. rewrite (dup_statement_count (C17_unitary FC n sp)
    (@combos_all_subsets _ (range (length (numbers (init_cell o)))) n (seq_NoDup _ _)
       (fun i => conj (fun H => proj2 (proj1 (in_seq _ _ _) H)) (fun H => proj2 (in_seq _ _ _) (conj (Nat.le_0_l i) H))))).
  rewrite combos_length. unfold range. now rewrite seq_length.
Qed.

Lemma C27_harmless_lemma h o act dup : (forall c, numbers (act c) = numbers c) ->
  gen_2nodup_gen_with h o act dup = gen_2nodup_gen h o dup.
Proof.
  intros H. unfold gen_2nodup_gen, gen_2nodup_gen_with. generalize (@nil Z) as iso. induction (items dup) as [|c l IH]; intros iso; cbn; [reflexivity|].
  rewrite IH, H. destruct (memZ _ _); [reflexivity|]. destruct (update_isoset _ _ _ _); [|reflexivity]. now rewrite IH.
Qed.
