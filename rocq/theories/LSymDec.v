(** A checker for exact space groups on concrete data, and the example cells. *)
From Coq Require Import String.
From Verif Require Import Base LBase BaseQ LQ MGeneralCell SGeneralCell LGeneralCell SSym LSym MSogen SOcc LPermDec.
Open Scope Z_scope.

Definition intb (x : Qc) : bool := Qceqb x (Zc (Qcfloor x)).
Lemma intb_ok x : intb x = true -> x = Zc (Qcfloor x).
Proof. unfold intb, Qceqb. intros H. apply Qc_is_canon. now apply Qeq_bool_iff in H. Qed.

Definition int_shiftb (p q : vec Qc) : bool :=
  (intb (vx q - vx p) && intb (vy q - vy p) && intb (vz q - vz p))%Qc.
Lemma int_shiftb_ok p q : int_shiftb p q = true -> int_shift p q.
Proof.
  unfold int_shiftb. rewrite !andb_true_iff. intros [[A B] C]. apply intb_ok in A, B, C.
  exists (Qcfloor (vx q - vx p)%Qc), (Qcfloor (vy q - vy p)%Qc), (Qcfloor (vz q - vz p)%Qc).
  rewrite <- A, <- B, <- C. destruct p, q; cbn. f_equal; ring.
Qed.

Definition vecZ_eqb (a b : vec Z) : bool := (vx a =? vx b) && (vy a =? vy b) && (vz a =? vz b).
Lemma vecZ_eqb_ok a b : vecZ_eqb a b = true -> a = b.
Proof. destruct a, b; unfold vecZ_eqb; cbn. rewrite !andb_true_iff, !Z.eqb_eq. intros [[-> ->] ->]. reflexivity. Qed.
Definition same_opb (a b : mat Z * vec Qc) : bool :=
  vecZ_eqb (vx (fst a)) (vx (fst b)) && vecZ_eqb (vy (fst a)) (vy (fst b)) && vecZ_eqb (vz (fst a)) (vz (fst b)) &&
  int_shiftb (snd a) (snd b).
Lemma same_opb_ok a b : same_opb a b = true -> same_op a b.
Proof.
  unfold same_opb, same_op. rewrite !andb_true_iff. intros [[[A B] C] D]. apply vecZ_eqb_ok in A, B, C.
  split; [|now apply int_shiftb_ok]. destruct a as [[x y z] t], b as [[x' y' z'] t']; cbn in *. congruence.
Qed.

Definition exact_space_groupb (ops : list (mat Z * vec Qc)) (pos : list (vec Qc)) : bool :=
  existsb (same_opb op_id) ops &&
  forallb (fun a => forallb (fun b => existsb (same_opb (op_comp a b)) ops) ops) ops &&
  forallb (fun a => existsb (fun b => same_opb (op_comp b a) op_id) ops) ops &&
  forallb (fun o => forallb (fun p => existsb (fun q => int_shiftb (op_image (fst o) (snd o) p) q) pos) pos) ops.
Lemma exact_space_groupb_ok ops pos : exact_space_groupb ops pos = true -> exact_space_group ops pos.
Proof.
  unfold exact_space_groupb. rewrite !andb_true_iff, !forallb_forall, existsb_exists. intros [[[I C] V] M].
  split; [|split; [|split]].
  - destruct I as [o [Ho E]]. exists o. split; [assumption|now apply same_opb_ok].
  - intros a b Ha Hb. specialize (C a Ha). rewrite forallb_forall in C. specialize (C b Hb). apply existsb_exists in C.
    destruct C as [c [Hc E]]. exists c. split; [assumption|now apply same_opb_ok].
  - intros a Ha. specialize (V a Ha). apply existsb_exists in V. destruct V as [b [Hb E]]. exists b. split; [assumption|now apply same_opb_ok].
  - intros o p Ho Hp. specialize (M o Ho). rewrite forallb_forall in M. specialize (M p Hp). apply existsb_exists in M.
    destruct M as [q [Hq E]]. exists q. split; [assumption|]. now apply int_shiftb_ok.
Qed.

Definition vQc_eqb (a b : vec Qc) : bool := Qceqb (vx a) (vx b) && Qceqb (vy a) (vy b) && Qceqb (vz a) (vz b).
Definition distinctb (pos : list (vec Qc)) : bool :=
  (fix go l := match l with [] => true | a :: t => negb (existsb (vQc_eqb a) t) && go t end) (map tofrac pos).
Lemma distinctb_ok pos : distinctb pos = true -> distinct_sites pos.
Proof.
  intros H. apply distinct_keys. unfold distinctb in H. induction (map tofrac pos) as [|a l IH]; constructor.
  - apply andb_true_iff in H. destruct H as [H _]. apply negb_true_iff in H. intros I.
    assert (T : existsb (vQc_eqb a) l = true); [|congruence]. apply existsb_exists. exists a. split; [assumption|].
    unfold vQc_eqb, Qceqb. rewrite !andb_true_iff. repeat split; apply Qeq_bool_refl.
  - apply IH. apply andb_true_iff in H. tauto.
Qed.

(** Example: four boron sites of a square net with its translations. *)
Definition sq_lat : mat Qc := (V3 (V3 1 0 0) (V3 0 1 0) (V3 0 0 1))%Qc.
Definition sq_pos : list (vec Qc) :=
  let h := Q2Qc (1#2) in [V3 0%Qc 0%Qc 0%Qc; V3 0%Qc h 0%Qc; V3 h 0%Qc 0%Qc; V3 h h 0%Qc].
Definition id3 : mat Z := V3 (V3 1 0 0) (V3 0 1 0) (V3 0 0 1).
Definition sq_ops : list symop :=
  let h := Q2Qc (1#2) in
  [(id3, V3 0%Qc 0%Qc 0%Qc); (id3, V3 0%Qc h 0%Qc); (id3, V3 h 0%Qc 0%Qc); (id3, V3 h h 0%Qc)].
Definition sq_cell : gcell :=
  mkG sq_lat sq_pos [5; 5; 5; 5] (sq_lat, sq_pos, [5; 5; 5; 5]) 4.
Definition sq_occ : occ := mkOcc sq_cell [[0;1;2;3]; [1;0;3;2]; [2;3;0;1]; [3;2;1;0]]%nat ["a"; "a"; "a"; "a"]%string.

Lemma sq_cell_new : GeneralCell_new sq_lat sq_pos [5; 5; 5; 5] = Ok sq_cell.
Proof. vm_compute. reflexivity. Qed.
Lemma sq_occ_new : OccupyGenerator_new sq_ops ["a"; "a"; "a"; "a"]%string sq_cell = Ok sq_occ.
Proof. vm_compute. reflexivity. Qed.
Lemma sq_fc : from_constructor (init_cell sq_occ).
Proof. exists sq_lat, sq_pos, [5; 5; 5; 5]. split; [reflexivity|]. exact sq_cell_new. Qed.
Lemma sq_group : perm_group (length (numbers (init_cell sq_occ))) (sym_perm sq_occ).
Proof. apply perm_groupb_ok. vm_compute. reflexivity. Qed.
Lemma sq_preserves : preserves (sym_perm sq_occ) (numbers (init_cell sq_occ)).
Proof. apply preservesb_ok. vm_compute. reflexivity. Qed.
Lemma sq_preserves_wy : preserves (sym_perm sq_occ) (wyckoffs sq_occ).
Proof.
  intros p Hp. cbn in Hp. destruct Hp as [<-|[<-|[<-|[<-|[]]]]]; repeat constructor.
Qed.
Lemma sq_exact : exact_space_group sq_ops (positions sq_cell).
Proof. apply exact_space_groupb_ok. vm_compute. reflexivity. Qed.
Lemma sq_distinct : distinct_sites (positions sq_cell).
Proof. apply distinctb_ok. vm_compute. reflexivity. Qed.
