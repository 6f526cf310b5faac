(** C95: adding one species after the other gives every multicomponent structure once. *)
From Coq Require Import String.
From Verif Require Import Base LBase BaseQ MGeneralCell SGeneralCell MComb SSubst SSym MSogen SOcc SEnum SRobust SChoice LDup LMisc LSym LSymDec LSogen LRobust LChoice LFrame SSteps LSteps LSteps2 LSteps3.
Open Scope list_scope.
Open Scope nat_scope.
Notation length := List.length.

(** Run the enumeration by element once for every new species, each time on every structure found so
    far and with the symmetry of that structure: no exception, and one structure for every class of the
    structures with the given numbers of atoms, under the symmetry of the structure one began with. *)
Theorem C95_one_by_one : forall h spg wy all c ele steps, from_constructor c -> distinct_sites (positions c) ->
  reports_symmetry spg all c -> new_species (numbers c) ele steps ->
  (forall k, collision_free h (composed (numbers c) ele (firstn k steps))) ->
  let t := one_by_one h spg wy ele steps c in
  stop t = None /\ Forall (same_frame c) (items t) /\
  transversal (geo_equivalent (spg c) (positions c)) (composed (numbers c) ele steps) (map numbers (items t)).
Proof. exact steps_geo. Qed.
Print Assumptions C95_one_by_one.

(** The order in which the species are added does not matter. *)
Theorem C95_order : forall h h' spg wy wy' all c ele steps steps', from_constructor c -> distinct_sites (positions c) ->
  reports_symmetry spg all c -> new_species (numbers c) ele steps -> Permutation steps steps' ->
  (forall k, collision_free h (composed (numbers c) ele (firstn k steps))) -> (forall k, collision_free h' (composed (numbers c) ele (firstn k steps'))) ->
  same_classes (geo_equivalent (spg c) (positions c))
    (map numbers (items (one_by_one h spg wy ele steps c))) (map numbers (items (one_by_one h' spg wy' ele steps' c))).
Proof.
  intros h h' spg wy wy' all c ele steps steps' FC DIS REP NS P CF CF'.
  destruct (C95_one_by_one h spg wy all c ele steps FC DIS REP NS CF) as (_ & _ & T).
  destruct (C95_one_by_one h' spg wy' all c ele steps' FC DIS REP (new_species_perm P NS) CF') as (_ & _ & T').
  apply (geo_match FC DIS REP (D := composed (numbers c) ele steps)); [intros x Hx; apply Hx|exact T|].
  refine (transversal_dom _ T'). intros x. split; apply composed_perm; [now symmetry|exact P].
Qed.
Print Assumptions C95_order.

(** For a structure of one element, adding two species one after the other finds what the ternary
    enumeration finds. *)
Theorem C95_ternary : forall h h' spg wy all c o ele n1 v1 n2 v2, from_constructor c -> distinct_sites (positions c) ->
  reports_symmetry spg all c -> Forall (fun a => a = ele) (numbers c) -> new_species (numbers c) ele [(n1, v1); (n2, v2)] ->
  (forall k, collision_free h (composed (numbers c) ele (firstn k [(n1, v1); (n2, v2)]))) ->
  collision_free h' (two_fold (numbers c) n1 v1 n2 v2) -> OccupyGenerator_new (spg c) (wy c) c = Ok o ->
  same_classes (geo_equivalent (spg c) (positions c))
    (map numbers (items (one_by_one h spg wy ele [(n1, v1); (n2, v2)] c)))
    (map numbers (items (gen_nodup_trinary_alloy h' o v1 (Z.of_nat n1) v2 (Z.of_nat n2)))).
Proof.
  intros h h' spg wy all c o ele n1 v1 n2 v2 FC DIS REP PURE NS CF CF' ON.
  destruct (C95_one_by_one h spg wy all c ele _ FC DIS REP NS CF) as (_ & _ & T).
  pose proof REP as [X R]. destruct (keeping_group DIS X (R c (init_frame FC))) as [X' K']. pose proof FC as (lat & pos & nums & L & NEW).
  destruct (generator_facts L NEW DIS X' K' ON) as (I & _ & _ & HG & PR & _ & GE).
  assert (FO : from_constructor (init_cell o)) by (rewrite I; exact FC). rewrite <- I in HG, PR, CF'.
  destruct (@C20_lemma h' o n1 n2 v1 v2 FO HG PR CF') as (_ & _ & T'). rewrite I in T'.
  apply (geo_match FC DIS REP (D := composed (numbers c) ele [(n1, v1); (n2, v2)])); [intros x Hx; apply Hx|exact T|].
  apply (transversal_rel (E := equivalent (sym_perm o))); [intros x y Dx; apply GE; apply Dx|].
  refine (transversal_dom _ T'). intros x. now apply two_fold_composed.
Qed.
Print Assumptions C95_ternary.

(** An oracle as required exists for every list of operations that is a space group of the sites. *)
Theorem C95_oracle : forall all c, from_constructor c -> distinct_sites (positions c) -> exact_space_group all (positions c) ->
  exists spg, reports_symmetry spg all c.
Proof. intros all c FC D X. exists (keeping_ops all). exact (keeping_ops_reports FC D X). Qed.
Print Assumptions C95_oracle.

(** Two atoms 6, then one atom 7, on four sites of one element. *)
Example C95_ex : reports_symmetry (keeping_ops sq_ops) sq_ops sq_cell /\ new_species (numbers sq_cell) 5%Z [(2, 6%Z); (1, 7%Z)] /\
  (forall k, collision_free poly (composed (numbers sq_cell) 5%Z (firstn k [(2, 6%Z); (1, 7%Z)]))) /\
  map numbers (items (one_by_one poly (keeping_ops sq_ops) (fun _ => []) 5%Z [(2, 6%Z); (1, 7%Z)] sq_cell)) = [[6;6;7;5]; [6;7;6;5]; [6;7;5;6]]%Z /\
  map numbers (items (one_by_one poly (keeping_ops sq_ops) (fun _ => []) 5%Z [(1, 7%Z); (2, 6%Z)] sq_cell)) = [[7;6;6;5]; [7;6;5;6]; [7;5;6;6]]%Z.
Proof.
  split; [exact (keeping_ops_reports sq_fc sq_distinct sq_exact)|]. split.
  - split; [repeat constructor; cbn; intuition discriminate|]. intros s Hs K. cbn in Hs, K. destruct Hs as [<-|[<-|[]]]; cbn in K; intuition discriminate.
  - split; [|split; vm_compute; reflexivity]. intros [|[|[|k]]]; cbn [firstn]; apply composed_poly; cbn; repeat constructor; intros; discriminate.
Qed.
