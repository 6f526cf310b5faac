(** C82: the number of structures is the one Burnside's lemma gives. *)
From Coq Require Import String.
From Verif Require Import Base BaseQ MGeneralCell SGeneralCell MComb SSubst SSym MSogen SOcc SEnum SBurn LDup LMisc LSymDec LSogen LBurn LFilter PSogen.
Open Scope nat_scope.

Lemma enumeration_count o P n sp t :
  perm_group (length (numbers (init_cell o))) (sym_perm o) -> preserves (sym_perm o) (numbers (init_cell o)) ->
  invariant (sym_perm o) P -> (forall i, P i -> i < length (numbers (init_cell o))) ->
  exact_enumeration o P n sp t ->
  burnside_count (sym_perm o) (k_fold (numbers (init_cell o)) P n sp) (length (items t)).
Proof.
  intros HG Pr Inv PL (_ & _ & T). rewrite <- (map_length numbers). apply (burnside HG).
  - intros x Hx. eapply kfold_length; eauto.
  - intros x y Hx E. eapply kfold_closed; eauto.
  - exact T.
Qed.

Theorem C82_all_sites : forall h o n sp, from_constructor (init_cell o) ->
  perm_group (length (numbers (init_cell o))) (sym_perm o) -> preserves (sym_perm o) (numbers (init_cell o)) ->
  collision_free h (k_fold (numbers (init_cell o)) (any_site (numbers (init_cell o))) n sp) ->
  burnside_count (sym_perm o) (k_fold (numbers (init_cell o)) (any_site (numbers (init_cell o))) n sp)
    (length (items (gen_nodup_unitary h o (Z.of_nat n) sp))).
Proof.
  intros h o n sp FC HG Pr CF. apply enumeration_count; auto.
  - now apply inv_any with (n := length (numbers (init_cell o))).
  - now apply C19_all_sites.
Qed.
Print Assumptions C82_all_sites.

Theorem C82_wyckoff : forall h o wy n sp, from_constructor (init_cell o) ->
  perm_group (length (numbers (init_cell o))) (sym_perm o) -> preserves (sym_perm o) (numbers (init_cell o)) ->
  length (wyckoffs o) = length (numbers (init_cell o)) -> preserves (sym_perm o) (wyckoffs o) ->
  collision_free h (k_fold (numbers (init_cell o)) (site_letter (wyckoffs o) wy) n sp) ->
  burnside_count (sym_perm o) (k_fold (numbers (init_cell o)) (site_letter (wyckoffs o) wy) n sp)
    (length (items (gen_nodup h o wy (Z.of_nat n) sp))).
Proof.
  intros h o wy n sp FC HG Pr LW PW CF. apply enumeration_count; auto.
  - now apply inv_letter.
  - intros i. now apply letter_lt.
  - now apply C19_wyckoff.
Qed.
Print Assumptions C82_wyckoff.

Theorem C82_element : forall h o ele n sp, from_constructor (init_cell o) ->
  perm_group (length (numbers (init_cell o))) (sym_perm o) -> preserves (sym_perm o) (numbers (init_cell o)) ->
  collision_free h (k_fold (numbers (init_cell o)) (site_holds (numbers (init_cell o)) ele) n sp) ->
  burnside_count (sym_perm o) (k_fold (numbers (init_cell o)) (site_holds (numbers (init_cell o)) ele) n sp)
    (length (items (gen_nodup_of_ele h o ele (Z.of_nat n) sp))).
Proof.
  intros h o ele n sp FC HG Pr CF. apply enumeration_count; auto.
  - now apply inv_holds.
  - intros i. apply holds_lt.
  - now apply C19_element.
Qed.
Print Assumptions C82_element.

Theorem C82_ternary : forall h o n1 n2 v1 v2, from_constructor (init_cell o) ->
  perm_group (length (numbers (init_cell o))) (sym_perm o) -> preserves (sym_perm o) (numbers (init_cell o)) ->
  collision_free h (two_fold (numbers (init_cell o)) n1 v1 n2 v2) ->
  burnside_count (sym_perm o) (two_fold (numbers (init_cell o)) n1 v1 n2 v2)
    (length (items (gen_nodup_trinary_alloy h o v1 (Z.of_nat n1) v2 (Z.of_nat n2)))).
Proof.
  intros h o n1 n2 v1 v2 FC HG Pr CF. destruct (C20_ternary h o n1 n2 v1 v2 FC HG Pr CF) as (_ & _ & T).
  rewrite <- (map_length numbers). apply (burnside HG).
  - intros x (S1 & S2 & _ & _ & _ & L & _). exact L.
  - intros x y Hx E. eapply two_fold_closed; eauto.
  - exact T.
Qed.
Print Assumptions C82_ternary.

(** The decorations cannot outnumber the structures by more than the order of the group. *)
Theorem C82_lower_bound : forall h o n sp Xs, from_constructor (init_cell o) ->
  perm_group (length (numbers (init_cell o))) (sym_perm o) -> preserves (sym_perm o) (numbers (init_cell o)) ->
  collision_free h (k_fold (numbers (init_cell o)) (any_site (numbers (init_cell o))) n sp) ->
  lists_once (k_fold (numbers (init_cell o)) (any_site (numbers (init_cell o))) n sp) Xs ->
  length Xs <= length (sym_perm o) * length (items (gen_nodup_unitary h o (Z.of_nat n) sp)).
Proof.
  intros h o n sp Xs FC HG Pr CF O. destruct (C19_all_sites h o n sp FC HG Pr CF) as (_ & _ & T).
  assert (Q : exists Gs, lists_once (fun p => In p (sym_perm o)) Gs /\
    length Xs <= length Gs * length (map numbers (items (gen_nodup_unitary h o (Z.of_nat n) sp)))).
  { apply (burnside_lower HG (D := k_fold (numbers (init_cell o)) (any_site (numbers (init_cell o))) n sp)).
    - intros x Hx. eapply kfold_length. exact Hx.
    - intros x y Hx E. apply (kfold_closed (n := length (numbers (init_cell o))) (G := sym_perm o) (x := x)); auto.
      now apply inv_any with (n := length (numbers (init_cell o))).
    - exact T.
    - exact O. }
  destruct Q as (Gs & [N I] & Le).
  rewrite map_length in Le. etransitivity; [exact Le|]. apply Nat.mul_le_mono_r. apply NoDup_incl_length; [exact N|].
  intros p Hp. now apply I.
Qed.
Print Assumptions C82_lower_bound.

(** Two atoms on the four corners of a rectangle, four symmetries: the identity fixes all 6
    decorations, the others 2 each, and 4 * 3 = 6 + 2 + 2 + 2. *)
Example C82_ex :
  burnside_count (sym_perm sq_occ) (k_fold (numbers (init_cell sq_occ)) (any_site (numbers (init_cell sq_occ))) 2 6%Z) 3 /\
  let D := [[6;6;5;5]; [6;5;6;5]; [6;5;5;6]; [5;6;6;5]; [5;6;5;6]; [5;5;6;6]]%Z in
  map (fun p => length (filter (fun x => if list_eq_dec Z.eq_dec (act_perm x p) x then true else false) D)) (sym_perm sq_occ) = [6; 2; 2; 2].
Proof.
  split; [|vm_compute; reflexivity].
  assert (CF : collision_free poly (k_fold (numbers (init_cell sq_occ)) (any_site (numbers (init_cell sq_occ))) 2 6%Z)).
  { apply kfold_poly. repeat constructor; lia. }
  exact (C82_all_sites poly sq_occ 2 6 sq_fc sq_group sq_preserves CF).
Qed.
