(** C61, C62, C72: the buckyball. *)
From Coq Require Import Sorted.
From Verif Require Import Base BaseQ SSubst SSym MBuckyTable MBucky SGeneralCell SSort SBucky LBucky LBuckyTable LBuckyGeo LBucky2.
Open Scope nat_scope.

Lemma new_inv nums s : Structure_new nums = Ok s -> s = ball nums.
Proof. rewrite Structure_new_ok. intros E. now injection E as <-. Qed.

(** C61: the table that every structure carries. *)
Theorem C61_group : forall nums, exists s, Structure_new nums = Ok s /\
  length (b_sym_perm s) = 120 /\ NoDup (b_sym_perm s) /\ perm_group 60 (b_sym_perm s).
Proof.
  intros nums. exists (ball nums). split; [apply Structure_new_ok|]. split; [exact bucky_length|].
  split; [exact bucky_distinct|exact bucky_group].
Qed.
Print Assumptions C61_group.
(** The sites are those of the data file in the order of their keys; the order of any
    position array is the stable one. *)
Theorem C61_order : forall pos, exists ks, Forall2 ball_keys pos ks /\ stable_argsort ks (bucky_new_id_seq pos).
Proof. exact bucky_order. Qed.
Print Assumptions C61_order.
Theorem C61_sites : forall nums s, Structure_new nums = Ok s ->
  reordered bucky_json_positions (bucky_new_id_seq bucky_json_positions) (b_positions s) /\ b_numbers s = nums.
Proof. exact bucky_sites. Qed.
Print Assumptions C61_sites.

(** C62: level by level, every initial decoration of the 60 sites. *)
Theorem C62_levels : forall h nums s n_max sp, Structure_new nums = Ok s -> length nums = 60 ->
  (forall k, k <= Z.to_nat (n_max - Z.of_nat (count_occ Z.eq_dec nums sp)) ->
     collision_free h (images (b_sym_perm s) (k_fold nums (site_not nums sp) k sp))) ->
  let out := b_all_speckle_gen h s n_max sp in
  length out = S (Z.to_nat (n_max - Z.of_nat (count_occ Z.eq_dec nums sp))) /\
  nth_error out 0 = Some (mkTrace [nums] None) /\
  forall k t, nth_error out k = Some t -> stop t = None /\
    transversal (equivalent (b_sym_perm s)) (k_fold nums (site_not nums sp) k sp) (items t).
Proof.
  intros h nums s n_max sp E L CF out. apply new_inv in E. subst s.
  split; [exact (b_all_length h (ball nums) sp n_max)|]. split; [reflexivity|]. intros k t Ht. split.
  - apply (@b_all_sound h (ball nums) 60 sp bucky_group L n_max k t Ht).
  - apply (@b_all_transversal h (ball nums) 60 sp bucky_group L n_max k t); [|exact Ht].
    intros m Hm. apply CF. rewrite b_all_length in Hm. cbn [b_numbers ball] in Hm. lia.
Qed.
Print Assumptions C62_levels.

(** Whatever the hash: only substitutions of the right size, never two equivalent ones. *)
Theorem C62_any_hash : forall h nums s n_max sp k t, Structure_new nums = Ok s -> length nums = 60 ->
  nth_error (b_all_speckle_gen h s n_max sp) k = Some t ->
  Forall (k_fold nums (site_not nums sp) k sp) (items t) /\ stop t = None /\
  ForallOrdPairs (fun a b => ~ equivalent (b_sym_perm s) a b /\ ~ equivalent (b_sym_perm s) b a) (items t).
Proof.
  intros h nums s n_max sp k t E L. apply new_inv in E. subst s. exact (@b_all_sound h (ball nums) 60 sp bucky_group L n_max k t).
Qed.
Print Assumptions C62_any_hash.

(** The class counts of the all-carbon ball with boron, for every collision-free hash. *)
Theorem C62_counts : forall h s, Structure_new (repeat 6%Z 60) = Ok s ->
  (forall k, k <= 3 ->
     collision_free h (images (b_sym_perm s) (k_fold (repeat 6%Z 60) (site_not (repeat 6%Z 60) 5%Z) k 5%Z))) ->
  map (fun t => length (items t)) (b_all_speckle_gen h s 3 5) = [1; 1; 23; 303].
Proof. intros h s E. apply new_inv in E. subst s. exact (C62_counts_lemma (h := h)). Qed.
Print Assumptions C62_counts.

(** [gen_speckle] lists every choice of sites once; filtered, one per class. *)
Theorem C62_gen_speckle : forall sp k, stop (gen_speckle sp (Z.of_nat k)) = None /\
  exists Ss, all_subsets_once (fun i => i < 60) k Ss /\
    Forall2 (fun S x => substituted (repeat 6%Z 60) S sp x) Ss (items (gen_speckle sp (Z.of_nat k))).
Proof. exact gen_speckle_lemma. Qed.
Print Assumptions C62_gen_speckle.
(** [help_add_one_speckle]: every decoration with one more [sp], once, by increasing site *)
Theorem C62_help : forall l sp, stop (help_add_one_speckle l sp) = None /\
  exists idx, StronglySorted lt idx /\ (forall i, In i idx <-> exists a, nth_error l i = Some a /\ a <> sp) /\
    Forall2 (fun i x => length x = length l /\ nth_error x i = Some sp /\ forall j, j <> i -> nth_error x j = nth_error l j)
      idx (items (help_add_one_speckle l sp)).
Proof. exact help_lemma. Qed.
Print Assumptions C62_help.
(** [nodup_generator] always fails: it uses a name that does not exist *)
Theorem C62_nodup_generator : items b_nodup_generator = [] /\ stop b_nodup_generator = Some NameError.
Proof. split; reflexivity. Qed.
Example C62_help_ex : items (help_add_one_speckle [6;5;6]%Z 5) = [[5;5;6]; [6;5;5]]%Z.
Proof. reflexivity. Qed.

Theorem C62_direct : forall h nums s sp k, Structure_new nums = Ok s ->
  collision_free h (images (b_sym_perm s) (k_fold (repeat 6%Z 60) (any_site (repeat 6%Z 60)) k sp)) ->
  let t := to_nodup_generator h s (gen_speckle sp (Z.of_nat k)) in
  stop t = None /\
  transversal (equivalent (b_sym_perm s)) (k_fold (repeat 6%Z 60) (any_site (repeat 6%Z 60)) k sp) (items t).
Proof. intros h nums s sp k E. apply new_inv in E. subst s. exact (@direct_lemma h sp k nums). Qed.
Print Assumptions C62_direct.

(** The constructor accepts arrays of any length; fewer than 60 numbers break the first
    level after one structure. *)
Theorem C62_short_raises : forall h nums s sp n_max, Structure_new nums = Ok s -> length nums < 60 ->
  (exists a, In a nums /\ a <> sp) -> (Z.of_nat (count_occ Z.eq_dec nums sp) < n_max)%Z ->
  exists x, nth_error (b_all_speckle_gen h s n_max sp) 1 = Some (mkTrace [x] (Some IndexError)).
Proof. intros h nums s sp n_max E. apply new_inv in E. subst s. exact (@short_lemma h nums sp n_max). Qed.
Print Assumptions C62_short_raises.

(** A decoration that the table does not preserve; the hypothesis of [C62_levels] holds for
    the injective code [bin]. *)
Example C62_ex : let nums := 5%Z :: repeat 6%Z 59 in
  length nums = 60 /\ ~ preserves bucky_perm_table nums /\
  (forall k, collision_free bin (images bucky_perm_table (k_fold nums (site_not nums 5%Z) k 5%Z))) /\
  map (fun t => length (items t)) (b_all_speckle_gen bin (ball nums) 2 5) = [1; 23].
Proof.
  cbv zeta. split; [reflexivity|]. split; [|split].
  - intros H. destruct bucky_group as [HP _].
    assert (In (nth 1 bucky_perm_table []) bucky_perm_table) by (apply nth_In; rewrite bucky_length; lia).
    apply H in H0. apply LGeneralCell.reordered_eq with (d := 0%Z) in H0. revert H0. vm_compute. discriminate.
  - intros k. apply images_two; [exact bucky_group|]. constructor; [now left|].
    apply Forall_forall. intros z Hz. apply repeat_spec in Hz. now right.
  - vm_compute. reflexivity.
Qed.

Example C62_counts_ex : forall k,
  collision_free bin (images bucky_perm_table (k_fold carbon (site_not carbon 5%Z) k 5%Z)).
Proof.
  intros k. apply images_two; [exact bucky_group|]. apply Forall_forall. intros z Hz. apply repeat_spec in Hz. now right.
Qed.

Example C62_short_ex : nth_error (b_all_speckle_gen bin (ball [6;6]%Z) 1 5) 1 = Some (mkTrace [[5;6]%Z] (Some IndexError)).
Proof. vm_compute. reflexivity. Qed.

(** C72: is the table the symmetry of the positions?  No row but the identity maps bonds to
    bonds: every other row maps some bond (1.7 long) to two sites more than 7 apart. *)
Theorem C72_table_refuted : forall nums s p, Structure_new nums = Ok s -> In p (b_sym_perm s) -> p <> seq 0 60 ->
  (exists i j i' j' d, bonded (Zc 10) (b_positions s) i j /\ nth_error p i = Some i' /\ nth_error p j = Some j' /\
    site_dist2 (Zc 10) (b_positions s) i' j' d /\ (Zc 49 < d)%Qc) /\
  ~ bond_symmetry (Zc 10) (b_positions s) p.
Proof.
  intros nums s p E Hp N. apply new_inv in E. subst s. cbn [b_positions ball b_sym_perm] in *.
  pose proof (table_far Hp N) as F. split; [exact F|]. destruct F as [i [j [i' [j' [d [B [Ei [Ej [H L]]]]]]]]].
  intros [_ BS]. specialize (BS i j i' j' Ei Ej B). destruct BS as [_ [d' [H' L']]].
  apply site_dist2_dz in H. apply site_dist2_dz in H'. destruct H as [_ [_ ->]], H' as [_ [_ ->]].
  apply (Qcle_not_lt _ _ L'). apply Qclt_trans with (Zc 49); [reflexivity|exact L].
Qed.
Print Assumptions C72_table_refuted.

(** In another numbering of the sites the table is exactly the group of all permutations
    that map bonds to bonds, so the numbers of classes are those of the ball. *)
Theorem C72_renamed : forall nums s, Structure_new nums = Ok s ->
  exists r, Permutation r (seq 0 60) /\
    forall q, bond_symmetry (Zc 10) (b_positions s) q <-> exists p, In p (b_sym_perm s) /\ renamed r p q.
Proof.
  intros nums s E. apply new_inv in E. subst s. exists ren. split; [exact ren_perm|]. exact C72_renamed_lemma.
Qed.
Print Assumptions C72_renamed.

(** Bond symmetries preserve all squared distances up to 0.08 (the precision of the data). *)
Theorem C72_isometry : forall nums s q, Structure_new nums = Ok s -> bond_symmetry (Zc 10) (b_positions s) q ->
  forall i j i' j' d d', nth_error q i = Some i' -> nth_error q j = Some j' ->
    site_dist2 (Zc 10) (b_positions s) i j d -> site_dist2 (Zc 10) (b_positions s) i' j' d' ->
    (d' <= d + Q2Qc (8 # 100) /\ d <= d' + Q2Qc (8 # 100))%Qc.
Proof. intros nums s q E. apply new_inv in E. subst s. exact (@iso_lemma q). Qed.
Print Assumptions C72_isometry.

Example C72_ex : In (nth 1 bucky_perm_table []) bucky_perm_table /\ nth 1 bucky_perm_table [] <> seq 0 60 /\
  exists q, q <> seq 0 60 /\ bond_symmetry (Zc 10) (b_positions (ball carbon)) q.
Proof.
  split; [apply nth_In; rewrite bucky_length; lia|]. split; [vm_compute; discriminate|].
  exists (nth 1 ren_table []). split; [vm_compute; discriminate|].
  apply ren_symmetry. apply nth_In. vm_compute. lia.
Qed.
