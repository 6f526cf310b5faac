(** Property C115: what a formula, and with it the name of a file, says about a structure. *)
From Coq Require Import String Ascii Sorted.
From Verif Require Import Base LBase BaseQ SElement MElement MGeneralCell SGeneralCell LGeneralCell SSubst SOcc SEnum SIO MIO SCli MCli LCli2 LCli7 LListing LSymDec LFormula PCli.
Open Scope list_scope.
Open Scope nat_scope.
Notation length := List.length.

(** Two structures have the same formula exactly if they have the same number of atoms of
    every element; vacancies do not count. *)
Theorem C115_formula : forall nums nums' s, formula nums s ->
  (formula nums' s <-> forall z, z <> 0%Z -> count_occ Z.eq_dec nums z = count_occ Z.eq_dec nums' z).
Proof. intros nums nums' s F. split; [exact (formula_counts F)|]. intros C. exact (formula_back C F). Qed.
Print Assumptions C115_formula.

Theorem C115_comment : forall c c' s, comment c = Ok s -> comment c' = Ok s ->
  forall z, z <> 0%Z -> count_occ Z.eq_dec (numbers c) z = count_occ Z.eq_dec (numbers c') z.
Proof. intros c c' s E E'. exact (formula_counts (proj2 (comment_supported E)) (proj2 (comment_supported E'))). Qed.
Print Assumptions C115_comment.

(** Two structures that one run writes to one path drew the same suffix and were written with
    the same numbers of atoms: structures of different composition never overwrite each other. *)
Theorem C115_files : forall refine dump refined mode dir suffix suffix' c c' p t t', String.length suffix = String.length suffix' ->
  structure_file refine dump refined mode dir suffix c (p, t) -> structure_file refine dump refined mode dir suffix' c' (p, t') ->
  suffix = suffix' /\ exists w w', written_cell refine refined c w /\ written_cell refine refined c' w' /\
    forall z, z <> 0%Z -> count_occ Z.eq_dec (numbers w) z = count_occ Z.eq_dec (numbers w') z.
Proof.
  intros refine dump refined mode dir suffix suffix' c c' p t t' L (w & com & f & W & C & P & _) (w' & com' & f' & W' & C' & P' & _).
  cbn [fst] in P, P'. rewrite P in P'. do 2 apply app_inj_l in P'. destruct (under_app L P') as [<- <-].
  split; [reflexivity|]. exists w, w'. split; [exact W|]. split; [exact W'|]. exact (C115_comment w w' com C C').
Qed.
Print Assumptions C115_files.

(** Structures with different numbers of replaced atoms have different formulas, also if the
    atoms are replaced by vacancies or vacancies are filled. *)
Theorem C115_levels : forall init ele sp k k' x y s, ele <> sp -> swapped init ele sp k x -> swapped init ele sp k' y ->
  formula x s -> formula y s -> k = k'.
Proof.
  intros init ele sp k k' x y s N (A1 & A2 & _) (B1 & B2 & _) F G. pose proof (formula_counts F G) as C.
  destruct (Z.eq_dec sp 0) as [->|NS].
  - pose proof (C ele N). lia.
  - pose proof (C sp NS). lia.
Qed.
Print Assumptions C115_levels.

(** Violation of "one formula, one composition": cells with different numbers of vacancies,
    hence of different size, have the same formula. *)
Theorem C115_vacancies_refuted : exists c c' s, comment c = Ok s /\ comment c' = Ok s /\ length (numbers c) <> length (numbers c').
Proof. exists (decorated sq_cell [5; 0]%Z), (decorated sq_cell [5; 0; 0]%Z), "B1"%string. vm_compute. repeat split. discriminate. Qed.
Print Assumptions C115_vacancies_refuted.

Example C115_ex : exists s, comment (decorated sq_cell [6; 5; 6; 0]%Z) = Ok s /\ comment (decorated sq_cell [5; 6; 6]%Z) = Ok s /\ s = "B1C2"%string /\
  swapped [5; 5; 5; 5]%Z 5 6 1 [5; 6; 5; 5]%Z /\ swapped [5; 5; 5; 5]%Z 5 6 2 [6; 5; 6; 5]%Z.
Proof.
  exists "B1C2"%string. split; [vm_compute; reflexivity|]. split; [vm_compute; reflexivity|]. split; [reflexivity|].
  split; (split; [reflexivity|split; [reflexivity|]]); intros w W1 W2; cbn -[Z.eq_dec]; repeat (destruct (Z.eq_dec _ _); try (exfalso; congruence)); reflexivity.
Qed.
Example C115_ex_file : exists t, structure_file (get_refined_pcell x_std) x_dump false "vasp" "/w" "AAAA" (decorated sq_cell [6; 5; 6; 5]%Z) ("/w/STRUCTURE_B2C2_AAAA.vasp"%string, t).
Proof. eexists. exists (decorated sq_cell [6; 5; 6; 5]%Z), "B2C2"%string, Fvasp. split; [reflexivity|]. split; [vm_compute; reflexivity|]. split; [reflexivity|]. split; [vm_compute; reflexivity|]. vm_compute. reflexivity. Qed.
