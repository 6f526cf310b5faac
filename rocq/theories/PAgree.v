(** C96: the grid-based generator and [OccupyGenerator] give the same structures. *)
From Coq Require Import String.
From Verif Require Import Base LBase BaseQ LQ MElement SElement MGeneralCell MComb SSubst MGrid SGrid MGrid2 SSym LSym LSymDec MSogen SOcc LMisc MLegacy SLegacy LAgree.
Open Scope list_scope.
Open Scope nat_scope.
Notation length := List.length.

(** The old generator [gen_nodup_cstru] on a grid, and the new one on the cell of the empty grid with the
    same operations: neither raises, and the structures are the same ones in the same order, as
    [GeneralCell] objects.  The old one compares texts, the new one hashes. *)
Theorem C96_agree : forall np2 ops wy hp m ssp sp d w l noa h g hp1 c o, 0 < d <= 990 -> 0 < w <= 990 -> 0 < l <= 990 ->
  supported (sp_Z ssp) -> supported (sp_Z sp) -> exact_space_group ops (all_sites d w l) ->
  sea hp d w l ssp = Ok (g, hp1) -> get_gcell hp1 (mkCStru m g) = Ok c -> OccupyGenerator_new ops wy c = Ok o ->
  collision_free h (k_fold (numbers c) (any_site (numbers c)) noa (sp_Z sp)) ->
  let (t, hp') := gen_nodup_cstru np2 ops hp m ssp (d, w, l) sp (Z.of_nat noa) in
  let t' := gen_nodup_unitary h o (Z.of_nat noa) (sp_Z sp) in
  stop t = None /\ stop t' = None /\ Forall2 (fun s x => get_gcell hp' s = Ok x) (items t) (items t').
Proof.
  intros np2 ops wy hp m ssp sp d w l noa h g hp1 c o Hd Hw Hl S1 S2 X ES EC EO CF.
  destruct (@agree_lemma np2 ops wy hp m ssp sp d w l noa h Hd Hw Hl S1 S2 X) as (g' & hp1' & c' & o' & ES' & EC' & EO' & H).
  assert (A : (g', hp1') = (g, hp1)) by congruence. injection A as -> ->. assert (c' = c) by congruence. subst c'. assert (o' = o) by congruence. subst o'.
  exact (H CF).
Qed.
Print Assumptions C96_agree.

(** The cell and the generator object exist. *)
Theorem C96_ready : forall ops wy hp m ssp d w l, 0 < d <= 990 -> 0 < w <= 990 -> 0 < l <= 990 ->
  supported (sp_Z ssp) -> exact_space_group ops (all_sites d w l) ->
  exists g hp1 c o, sea hp d w l ssp = Ok (g, hp1) /\ get_gcell hp1 (mkCStru m g) = Ok c /\ OccupyGenerator_new ops wy c = Ok o.
Proof.
  intros ops wy hp m ssp d w l Hd Hw Hl S1 X.
  destruct (@agree_lemma false ops wy hp m ssp ssp d w l 0 (fun _ => 0%Z) Hd Hw Hl S1 S1 X) as (g & hp1 & c & o & ES & EC & EO & _).
  now exists g, hp1, c, o.
Qed.
Print Assumptions C96_ready.

(** Before the filter: the unfiltered streams agree whatever the symmetry. *)
Theorem C96_unfiltered : forall hp m ssp sp d w l noa g hp1 c perms wy, 0 < d <= 990 -> 0 < w <= 990 -> 0 < l <= 990 ->
  supported (sp_Z ssp) -> supported (sp_Z sp) -> sea hp d w l ssp = Ok (g, hp1) -> get_gcell hp1 (mkCStru m g) = Ok c ->
  let (t, hp') := cstru_gen_speckle hp1 m ssp (d, w, l) sp (Z.of_nat noa) in
  let t' := gen_dup_unitary (mkOcc c perms wy) (Z.of_nat noa) (sp_Z sp) in
  stop t = None /\ stop t' = None /\ Forall2 (fun s x => get_gcell hp' s = Ok x) (items t) (items t').
Proof.
  intros hp m ssp sp d w l noa g hp1 c perms wy Hd Hw Hl S1 S2 ES EC.
  destruct (@dup_lemma hp m ssp sp d w l noa Hd Hw Hl S1 S2) as (g' & hp1' & c' & ES' & EC' & H).
  assert (A : (g', hp1') = (g, hp1)) by congruence. injection A as -> ->. assert (c' = c) by congruence. subst c'. exact (H perms wy).
Qed.
Print Assumptions C96_unfiltered.

(** A row of four sites with its four translations, two atoms: two structures from either generator. *)
Definition row_ops : list symop :=
  [op_id; (fst op_id, V3 0 0 (Q2Qc (1#4)))%Qc; (fst op_id, V3 0 0 (Q2Qc (1#2)))%Qc; (fst op_id, V3 0 0 (Q2Qc (3#4)))%Qc].
Definition row_basis : mat Qc := (V3 (V3 1 0 0) (V3 0 1 0) (V3 0 0 1))%Qc.
Definition row_sp : specie := match from_num 5 with Ok s => s | Raise _ => GhostSpecie_new end.
Example C96_ex : exists g hp1 c o, exact_space_group row_ops (all_sites 1 1 4) /\
  sea [] 1 1 4 GhostSpecie_new = Ok (g, hp1) /\ get_gcell hp1 (mkCStru row_basis g) = Ok c /\ OccupyGenerator_new row_ops [] c = Ok o /\
  collision_free poly (k_fold (numbers c) (any_site (numbers c)) 2 (sp_Z row_sp)) /\
  map numbers (items (gen_nodup_unitary poly o 2 5%Z)) = [[5;5;0;0]; [5;0;5;0]]%Z /\
  (let (t, hp) := gen_nodup_cstru false row_ops [] row_basis GhostSpecie_new (1, 1, 4) row_sp 2 in
   mapM (fun s => to_array hp (c_grid s)) (items t)) = Ok [[[[5;5;0;0]]]; [[[5;0;5;0]]]]%Z /\
  (** a hash that confuses them: the new generator loses one *)
  map numbers (items (gen_nodup_unitary (fun _ => 0%Z) o 2 5%Z)) = [[5;5;0;0]]%Z.
Proof.
  do 4 eexists. split; [apply exact_space_groupb_ok; vm_compute; reflexivity|].
  split; [vm_compute; reflexivity|]. split; [vm_compute; reflexivity|]. split; [vm_compute; reflexivity|].
  split; [apply kfold_poly; vm_compute; repeat constructor; discriminate|]. repeat split; vm_compute; reflexivity.
Qed.
