(** Properties C08 - C12 (GeneralCell). *)
From Coq Require Import String Sorted.
From Verif Require Import Base BaseQ MElement SElement SSort MGeneralCell SGeneralCell LGeneralCell.
Open Scope Z_scope.

(** C08: the constructor stably sorts the atoms by wrapped rounded position. *)
Theorem C08_constructor_is_stable_sort : forall lat pos nums,
  pos <> [] -> length pos = length nums ->
  exists c ks r,
    GeneralCell_new lat pos nums = Ok c /\ lattice c = lat /\
    Forall2 vwrap3 pos ks /\ stable_argsort ks r /\
    reordered pos r (positions c) /\ reordered nums r (numbers c) /\
    spg_cell c = (lat, positions c, numbers c) /\ num_count c = length nums.
Proof. exact C08_lemma. Qed.
Print Assumptions C08_constructor_is_stable_sort.

Theorem C08_atoms_preserved : forall lat pos nums c, length pos = length nums ->
  GeneralCell_new lat pos nums = Ok c ->
  Permutation (combine (positions c) (numbers c)) (combine pos nums).
Proof. exact C08_pairs. Qed.
Print Assumptions C08_atoms_preserved.

Definition ex_lat : mat Qc := (V3 (V3 1 0 0) (V3 0 1 0) (V3 0 0 1))%Qc.
Definition ex_pos : list (vec Qc) :=
  [V3 (Q2Qc (1#2)) (Q2Qc (1#2)) 0%Qc; V3 0%Qc 0%Qc 0%Qc; V3 (Q2Qc (5#4)) 0%Qc 0%Qc; V3 (Q2Qc (-1#2)) 0%Qc 0%Qc].
Definition ex_nums : list Z := [5; 6; 7; 8].

Example C08_ex : exists c, GeneralCell_new ex_lat ex_pos ex_nums = Ok c /\ numbers c = [6; 7; 8; 5].
Proof. eexists. split; [vm_compute; reflexivity|reflexivity]. Qed.

(** C09 *)
Theorem C09_rebuilding_is_identity : forall lat pos nums c, length pos = length nums ->
  GeneralCell_new lat pos nums = Ok c ->
  GeneralCell_new (lattice c) (positions c) (numbers c) = Ok c.
Proof. exact C09_idempotent. Qed.
Print Assumptions C09_rebuilding_is_identity.

Theorem C09_input_order_irrelevant : forall lat pos nums pos' nums',
  length pos = length nums -> length pos' = length nums' ->
  Permutation (combine pos nums) (combine pos' nums') ->
  (forall ks, Forall2 vwrap3 pos ks -> NoDup ks) ->
  GeneralCell_new lat pos nums = GeneralCell_new lat pos' nums'.
Proof. exact C09_order_independent. Qed.
Print Assumptions C09_input_order_irrelevant.

Theorem C09_integer_shift : forall lat pos pos' nums c, Forall2 int_shift pos pos' ->
  GeneralCell_new lat pos nums = Ok c ->
  exists c', GeneralCell_new lat pos' nums = Ok c' /\ numbers c' = numbers c /\
             Forall2 int_shift (positions c) (positions c').
Proof. exact C09_shift. Qed.
Print Assumptions C09_integer_shift.

Example C09_ex : GeneralCell_new ex_lat ex_pos ex_nums = GeneralCell_new ex_lat (rev ex_pos) (rev ex_nums)
  /\ ex_pos <> rev ex_pos.
Proof. split; [vm_compute; reflexivity|]. intros H. discriminate. Qed.
Example C09_ex_hyp : forall ks, Forall2 vwrap3 ex_pos ks -> NoDup ks.
Proof.
  intros ks H. apply Forall2_vwrap3 in H. subst.
  assert (E : forall l : list (vec Qc), ForallOrdPairs (fun a b => (Qceqb (vx a) (vx b) && Qceqb (vy a) (vy b) && Qceqb (vz a) (vz b)) = false) l -> NoDup l).
  { induction 1; constructor; [|assumption]. intros I. rewrite Forall_forall in H. specialize (H _ I).
    rewrite !andb_false_iff in H. destruct a; cbn in H.
    destruct H as [[H|H]|H]; unfold Qceqb in H; rewrite (proj2 (Qeq_bool_iff _ _)) in H by reflexivity; discriminate. }
  apply E. repeat constructor; vm_compute; reflexivity.
Qed.

(** C10 *)
Theorem C10_length_mismatch : forall lat pos nums,
  (pos = [] -> GeneralCell_new lat pos nums = Raise ValueError) /\
  ((length nums < length pos)%nat -> GeneralCell_new lat pos nums = Raise IndexError) /\
  (pos <> [] -> (length pos <= length nums)%nat -> exists c, GeneralCell_new lat pos nums = Ok c /\
     length (positions c) = length pos /\ length (numbers c) = length pos /\
     Permutation (numbers c) (firstn (length pos) nums) /\ num_count c = length nums).
Proof. exact C10_lemma. Qed.
Print Assumptions C10_length_mismatch.

Example C10_ex : exists c, GeneralCell_new ex_lat [v0] [5; 6] = Ok c /\ numbers c = [5] /\ num_count c = 2%nat.
Proof. eexists. split; [vm_compute; reflexivity|]. split; reflexivity. Qed.

(** C11: the setter updates [numbers] and everything computed from it, but not the view
    handed to spglib; the views stay consistent exactly when nothing changes. *)
Theorem C11_setter_effect : forall c arr,
  numbers (set_numbers c arr) = arr /\ lattice (set_numbers c arr) = lattice c /\
  positions (set_numbers c arr) = positions c /\ spg_cell (set_numbers c arr) = spg_cell c /\
  num_count (set_numbers c arr) = num_count c /\
  (forall h, cell_id h (set_numbers c arr) = h arr) /\
  (forall z, get_speckle_num (set_numbers c arr) z = count_occ Z.eq_dec arr z) /\
  (forall ops, get_symmetry_permutation ops (set_numbers c arr) = get_symmetry_permutation ops c).
Proof. exact C11_frame. Qed.
Print Assumptions C11_setter_effect.

Theorem C11_consistent_iff_unchanged : forall c arr,
  views_agree (lattice c) (positions c) (numbers c) (spg_cell c) ->
  (views_agree (lattice (set_numbers c arr)) (positions (set_numbers c arr))
     (numbers (set_numbers c arr)) (spg_cell (set_numbers c arr))
   <-> arr = numbers c).
Proof. exact C11_exact. Qed.
Print Assumptions C11_consistent_iff_unchanged.

Theorem C11_constructor_consistent : forall lat pos nums c, GeneralCell_new lat pos nums = Ok c ->
  views_agree (lattice c) (positions c) (numbers c) (spg_cell c).
Proof. exact GeneralCell_new_views. Qed.
Print Assumptions C11_constructor_consistent.

(** The property as wished is violated. *)
Theorem C11_refuted : exists lat pos nums c arr, GeneralCell_new lat pos nums = Ok c /\
  length arr = length (numbers c) /\
  ~ views_agree (lattice (set_numbers c arr)) (positions (set_numbers c arr))
     (numbers (set_numbers c arr)) (spg_cell (set_numbers c arr)).
Proof.
  exists ex_lat, [v0], [5]. eexists. exists [6].
  split; [vm_compute; reflexivity|]. split; [reflexivity|]. unfold views_agree. cbn. discriminate.
Qed.
Print Assumptions C11_refuted.

(** C12 *)
Theorem C12_comment_is_formula : forall c, Forall supported (numbers c) ->
  exists s, comment c = Ok s /\ formula (numbers c) s.
Proof. exact comment_spec. Qed.
Print Assumptions C12_comment_is_formula.

Theorem C12_formula_unique : forall nums s s', formula nums s -> formula nums s' -> s = s'.
Proof. exact formula_unique. Qed.
Print Assumptions C12_formula_unique.

Theorem C12_order_independent : forall c c', Permutation (numbers c) (numbers c') -> comment c = comment c'.
Proof. exact comment_order_independent. Qed.
Print Assumptions C12_order_independent.

Theorem C12_count_agrees : forall c z, get_speckle_num c z = count_occ Z.eq_dec (numbers c) z.
Proof. exact get_speckle_num_spec. Qed.
Print Assumptions C12_count_agrees.

Example C12_ex : exists c, GeneralCell_new ex_lat ex_pos [31; 0; 7; 31] = Ok c /\ comment c = Ok "N1Ga2"%string.
Proof. eexists. split; [vm_compute; reflexivity|vm_compute; reflexivity]. Qed.
