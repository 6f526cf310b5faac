(** C15: rounding noise. *)
From Verif Require Import Base LBase BaseQ LQ MGeneralCell SGeneralCell LGeneralCell SSym LSym.
Open Scope Z_scope.

Definition nz_lat : mat Qc := (V3 (V3 1 0 0) (V3 0 1 0) (V3 0 0 1))%Qc.
Definition nz_pos : list (vec Qc) :=
  [V3 (Q2Qc (1#10000)) (Q2Qc (1#10)) 0%Qc; V3 (Q2Qc (4#10000)) (Q2Qc (6#10)) 0%Qc].
Definition nz_nums : list Z := [5; 5].
Definition nz_op : symop := (V3 (V3 (-1) 0 0) (V3 0 1 0) (V3 0 0 1), V3 (Q2Qc (65#100000)) 0%Qc 0%Qc).
Definition nz_cell : gcell := mkG nz_lat nz_pos nz_nums (nz_lat, nz_pos, nz_nums) 2.
Definition nz_eps : Qc := Q2Qc (1#1000).

Lemma nz_near i p : nth_error nz_pos i = Some p -> near nz_eps (op_image (fst nz_op) (snd nz_op) p) p.
Proof.
  destruct i as [|[|i]]; cbn; intros H; [| |destruct i; discriminate]; injection H as <-;
    (split; [|split]); exists 0; split; unfold Qcle; apply Qle_bool_iff; vm_compute; reflexivity.
Qed.

Lemma nz_far a : ~ (- nz_eps <= Q2Qc (6#10) - Q2Qc (1#10) - Zc a /\ Q2Qc (6#10) - Q2Qc (1#10) - Zc a <= nz_eps)%Qc.
Proof.
  unfold nz_eps. intros [H1 H2]. unfold Qcle in *. rewrite !this_minus, this_Zc in *. rewrite ?this_opp, !this_Q2Qc in *.
  assert (a <= 0 \/ 1 <= a) as [K|K] by lia.
  - assert (inject_Z a <= 0)%Q by (change 0%Q with (inject_Z 0); rewrite <- Zle_Qle; exact K). lra.
  - assert (1 <= inject_Z a)%Q by (change 1%Q with (inject_Z 1); rewrite <- Zle_Qle; exact K). lra.
Qed.

Lemma C15_witness : exists lat pos nums c (o : symop) perm p0 p1 q,
  GeneralCell_new lat pos nums = Ok c /\
  (forall i p, nth_error (positions c) i = Some p -> near nz_eps (op_image (fst o) (snd o) p) p) /\
  same_op (op_comp o o) op_id /\
  get_symmetry_permutation [o] c = Ok [perm] /\
  positions c = [p0; p1] /\ nth_error perm 0%nat = Some 1%nat /\
  q = op_image (fst o) (snd o) p1 /\ ~ near nz_eps q p0.
Proof.
  exists nz_lat, nz_pos, nz_nums, nz_cell, nz_op, [1; 0]%nat, (V3 (Q2Qc (1#10000)) (Q2Qc (1#10)) 0%Qc), (V3 (Q2Qc (4#10000)) (Q2Qc (6#10)) 0%Qc).
  eexists. split; [vm_compute; reflexivity|]. split; [exact nz_near|]. split.
  - split; [reflexivity|]. exists 0, 0, 0. cbn. unfold v0. f_equal; apply Qc_is_canon; vm_compute; reflexivity.
  - split; [vm_compute; reflexivity|]. split; [reflexivity|]. split; [reflexivity|]. split; [reflexivity|].
    intros [_ [[a H] _]]. apply (nz_far a). cbn in H.
    replace (Zc 0 * Q2Qc (4#10000) + Zc 1 * Q2Qc (6 # 10) + Zc 0 * 0 + 0)%Qc with (Q2Qc (6#10)) in H; [exact H|].
    apply Qc_is_canon. vm_compute. reflexivity.
Qed.
