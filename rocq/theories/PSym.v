(** Properties C13 - C15 (symmetry permutations of a cell). *)
From Verif Require Import Base BaseQ MGeneralCell SGeneralCell SSym LSym MSogen SOcc LDup LSymDec LNoise.

(** C13: an operation that maps the rounded site set onto itself yields the permutation of
    its geometric action. *)
Theorem C13_permutation_is_geometric : forall lat pos nums c ops perms,
  GeneralCell_new lat pos nums = Ok c -> distinct_sites (positions c) ->
  get_symmetry_permutation ops c = Ok perms ->
  Forall2 (fun o perm => maps_sites o (positions c) ->
     Permutation perm (seq 0 (length (positions c))) /\
     forall i j, nth_error perm i = Some j ->
       exists p q, nth_error (positions c) j = Some p /\ nth_error (positions c) i = Some q /\ carries o p q) ops perms.
Proof. intros lat pos nums c ops perms H. exact (C13_lemma (proj1 (GeneralCell_new_canonical H))). Qed.
Print Assumptions C13_permutation_is_geometric.

Theorem C13_never_fails : forall lat pos nums c ops,
  GeneralCell_new lat pos nums = Ok c -> exists perms, get_symmetry_permutation ops c = Ok perms.
Proof. intros lat pos nums c ops H. eexists. exact (mapM_gsp_ok ops (proj2 (GeneralCell_new_canonical H))). Qed.
Print Assumptions C13_never_fails.

Example C13_ex : GeneralCell_new sq_lat sq_pos [5; 5; 5; 5]%Z = Ok sq_cell /\ distinct_sites (positions sq_cell) /\
  (forall o, In o sq_ops -> maps_sites o (positions sq_cell)) /\
  get_symmetry_permutation sq_ops sq_cell = Ok [[0;1;2;3]; [1;0;3;2]; [2;3;0;1]; [3;2;1;0]]%nat.
Proof.
  split; [exact sq_cell_new|]. split; [exact sq_distinct|]. split; [|vm_compute; reflexivity].
  intros o Ho. apply exact_maps_sites with sq_ops; auto; [apply distinct_keys; exact sq_distinct|exact sq_exact].
Qed.

(** C14: the permutations of a space group form a group. *)
Theorem C14_group : forall lat pos nums c ops perms,
  GeneralCell_new lat pos nums = Ok c -> distinct_sites (positions c) ->
  (forall o, In o ops -> maps_sites o (positions c)) -> ops_group ops (positions c) ->
  get_symmetry_permutation ops c = Ok perms ->
  perm_group (length (positions c)) perms.
Proof. intros lat pos nums c ops perms H. exact (C14_lemma (proj1 (GeneralCell_new_canonical H))). Qed.
Print Assumptions C14_group.

Theorem C14_exact_space_group : forall lat pos nums c ops perms,
  GeneralCell_new lat pos nums = Ok c -> distinct_sites (positions c) ->
  exact_space_group ops (positions c) ->
  get_symmetry_permutation ops c = Ok perms ->
  perm_group (length (positions c)) perms.
Proof. intros lat pos nums c ops perms H. exact (C14_exact (proj1 (GeneralCell_new_canonical H))). Qed.
Print Assumptions C14_exact_space_group.

Theorem C14_species_preserved : forall lat pos nums c ops perms, length pos = length nums ->
  GeneralCell_new lat pos nums = Ok c -> distinct_sites (positions c) ->
  (forall o, In o ops -> maps_sites o (positions c)) ->
  (forall o i j p q, In o ops -> nth_error (positions c) j = Some p -> nth_error (positions c) i = Some q ->
     carries o p q -> nth_error (numbers c) j = nth_error (numbers c) i) ->
  get_symmetry_permutation ops c = Ok perms ->
  preserves perms (numbers c).
Proof. exact C14_preserves_new. Qed.
Print Assumptions C14_species_preserved.

Example C14_ex : exact_space_group sq_ops (positions sq_cell) /\ distinct_sites (positions sq_cell).
Proof. exact (conj sq_exact sq_distinct). Qed.

(** C15 is violated: an operation (an exact involution) that moves every site by less than
    the tolerance 0.001 is given the permutation that swaps two far-apart sites. *)
Theorem C15_refuted : exists lat pos nums c (o : symop) perm p0 p1 q,
  GeneralCell_new lat pos nums = Ok c /\
  (forall i p, nth_error (positions c) i = Some p -> near (Q2Qc (1#1000)) (op_image (fst o) (snd o) p) p) /\
  same_op (op_comp o o) op_id /\
  get_symmetry_permutation [o] c = Ok [perm] /\
  positions c = [p0; p1] /\ nth_error perm 0%nat = Some 1%nat /\
  q = op_image (fst o) (snd o) p1 /\ ~ near (Q2Qc (1#1000)) q p0.
Proof. exact C15_witness. Qed.
Print Assumptions C15_refuted.
