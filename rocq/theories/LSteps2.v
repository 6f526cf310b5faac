(** The generator run for one species after the other. *)
From Coq Require Import String.
From Verif Require Import Base LBase BaseQ MGeneralCell SGeneralCell LGeneralCell MComb SSubst SSym MSogen LFilter SOcc SEnum LDup LLevels LMisc LSym LSymDec LSogen SRobust LRobust SChoice LChoice LFrame LCli3 SSteps LSteps.
Set Implicit Arguments.
Unset Strict Implicit.
Open Scope list_scope.
Open Scope nat_scope.
Notation length := List.length.

Lemma shift_same pos i j p q : distinct_sites pos -> nth_error pos i = Some p -> nth_error pos j = Some q -> int_shift p q -> i = j.
Proof. intros D Hp Hq S. apply distinct_keys in D. apply (distinct_pos D Hp Hq). symmetry. now apply tofrac_shift. Qed.

(** The operations that keep the species form a group. *)
Lemma keeping_group all ops pos nums : distinct_sites pos -> exact_space_group all pos ->
  (forall o, In o ops <-> In o all /\ species_kept [o] pos nums) -> exact_space_group ops pos /\ species_kept ops pos nums.
Proof.
  intros D X K. pose proof X as (XI & XC & XV & XM).
  assert (KEEP : species_kept ops pos nums).
  { intros o i j p q Ho. apply K in Ho. destruct Ho as [_ H]. apply H. now left. }
  split; [|exact KEEP]. split; [|split; [|split]].
  - destruct XI as (o & Ho & S). exists o. split; [|exact S]. apply K. split; [exact Ho|]. intros o' i j p q [<-|[]] Hp Hq C.
    assert (j = i); [|congruence]. apply (shift_same D Hp Hq). unfold carries_exactly in C. apply int_shift_trans with (2 := C).
    rewrite <- (op_id_image p) at 1. now apply same_op_image.
  - intros a b Ha Hb. pose proof Ha as Ha'. pose proof Hb as Hb'. apply K in Ha, Hb. destruct (XC a b (proj1 Ha) (proj1 Hb)) as (d & Hd & S). exists d. split; [|exact S].
    apply K. split; [exact Hd|]. intros o' i j p q [<-|[]] Hp Hq C.
    destruct (XM b p (proj1 Hb) (nth_error_In _ _ Hp)) as (r & Hr & Cr). destruct (XM a r (proj1 Ha) Hr) as (s & Hs & Cs).
    apply In_nth_error in Hr, Hs. destruct Hr as [k Hk], Hs as [l Hl].
    rewrite (KEEP b k j p r Hb' Hp Hk Cr), (KEEP a l k r s Ha' Hk Hl Cs). f_equal. apply (shift_same D Hl Hq).
    unfold carries_exactly in *. apply int_shift_trans with (2 := C). apply int_shift_trans with (2 := same_op_image p S). rewrite op_comp_image.
    apply int_shift_sym. eapply int_shift_trans; [|exact Cs]. now apply op_image_shift.
  - intros a Ha. pose proof Ha as Ha'. apply K in Ha. destruct (XV a (proj1 Ha)) as (b & Hb & S). exists b. split; [|exact S].
    apply K. split; [exact Hb|]. intros o' i j p q [<-|[]] Hp Hq C.
    pose proof (proj1 (distinct_keys _) D) as ND.
    destruct (exact_maps_sites ND X (proj1 Ha)) as [_ ON]. destruct (ON p (nth_error_In _ _ Hp)) as (r & Hr & Cr).
    apply (carries_to_exact ND X (proj1 Ha) Hr (nth_error_In _ _ Hp)) in Cr. apply In_nth_error in Hr. destruct Hr as [k Hk].
    rewrite <- (KEEP a j k r p Ha' Hk Hp Cr). f_equal. apply (shift_same D Hk Hq). unfold carries_exactly in *. apply int_shift_trans with (2 := C).
    apply int_shift_trans with (op_image (fst b) (snd b) (op_image (fst a) (snd a) r)); [|now apply op_image_shift].
    rewrite <- op_comp_image. rewrite <- (op_id_image r) at 1. apply int_shift_sym. now apply same_op_image.
  - intros o p Ho Hp. apply K in Ho. exact (XM o p (proj1 Ho) Hp).
Qed.

Section Steps.
Variables (h : list Z -> Z) (spg : gcell -> list (mat Z * vec Qc)) (wy : gcell -> list string) (all : list (mat Z * vec Qc)) (c : gcell) (ele : Z).
Hypothesis FC : from_constructor c.
Hypothesis DIS : distinct_sites (positions c).
Hypothesis REP : reports_symmetry spg all c.

Lemma frame_cellof g : same_frame c g -> g = cellof c (numbers g).
Proof.
  intros (A & B & C & D & V). destruct (from_constructor_facts FC) as (_ & _ & LE & NC & _). unfold views_agree in V.
  destruct g as [lat pos nums sp k]. cbn in *. subst. unfold cellof. cbn. f_equal; congruence.
Qed.
Lemma frame_fc g : same_frame c g -> from_constructor g.
Proof.
  intros S. destruct (from_constructor_facts FC) as (_ & _ & LE & NC & _). pose proof S as (_ & _ & _ & L & _).
  exists (lattice c), (positions c), (numbers g). split; [congruence|]. rewrite (frame_cellof S) at 2. apply (new_cellof FC). exact L.
Qed.

Definition permof (o : mat Z * vec Qc) : list nat := order_of (map (apply_op o) (positions c)).
Definition occ_of (g : gcell) : occ := mkOcc g (map permof (spg g)) (wy g).
Lemma occ_new g : same_frame c g -> OccupyGenerator_new (spg g) (wy g) g = Ok (occ_of g).
Proof.
  intros S. pose proof S as (_ & P & _). destruct (from_constructor_facts FC) as (_ & NE & _).
  unfold OccupyGenerator_new. rewrite (@mapM_gsp_ok (spg g) g) by congruence. cbn. unfold occ_of, permof. now rewrite P.
Qed.
Lemma permof_spec o : In o all -> Permutation (permof o) (seq 0 (length (positions c))) /\
  forall i j, nth_error (permof o) i = Some j -> exists p q, nth_error (positions c) j = Some p /\ nth_error (positions c) i = Some q /\ carries_exactly o p q.
Proof.
  intros Ho. destruct REP as [X _]. destruct (from_constructor_facts FC) as (C & _). pose proof (proj1 (distinct_keys _) DIS) as ND.
  destruct (sym_perm_spec C ND (exact_maps_sites ND X Ho)) as [A B]. split; [exact A|]. intros i j E. destruct (B i j E) as (p & q & Hp & Hq & K).
  exists p, q. repeat split; auto. exact (carries_to_exact ND X Ho (nth_error_In _ _ Hp) (nth_error_In _ _ Hq) K).
Qed.
Lemma permof_keeps o x : In o all -> length x = length (positions c) -> species_kept [o] (positions c) x <-> reordered x (permof o) x.
Proof.
  intros Ho L. destruct (permof_spec Ho) as [P S]. split.
  - intros K. apply reordered_intro; [now rewrite (perm_length P)|]. intros i j E. destruct (S i j E) as (p & q & Hp & Hq & C).
    pose proof (K o i j p q (or_introl eq_refl) Hp Hq C) as EQ. assert (Li : i < length x) by (rewrite L; apply nth_error_Some; congruence).
    destruct (nth_error x i) as [a|] eqn:Ea; [|apply nth_error_None in Ea; lia]. exists a. split; congruence.
  - intros R o' i j p q [<-|[]] Hp Hq C. pose proof (proj1 (distinct_keys _) DIS) as ND.
    assert (Lj : j < length (positions c)) by (apply nth_error_Some; congruence).
    destruct (perm_surj P Lj) as (i' & _ & E). destruct (S i' j E) as (p' & q' & Hp' & Hq' & C'). assert (p' = p) by congruence. subst p'.
    assert (i' = i) by (apply (@carries_fun o _ _ _ _ _ _ _ ND Hp Hq' Hq); now apply carries_exactly_carries). subst i'. rewrite (reordered_nth i R), E. reflexivity.
Qed.

Notation rl := (rel (fun p x y => @reordered Z x p y)).
(** The permutations of the cell with the elements [y]. *)
Definition keeps (y : list Z) (p : list nat) : Prop := exists o, In o all /\ p = permof o /\ reordered y p y.
Lemma in_perms g p : same_frame c g -> In p (sym_perm (occ_of g)) <-> keeps (numbers g) p.
Proof.
  intros S. cbn [occ_of sym_perm]. rewrite in_map_iff. destruct REP as [_ R]. pose proof S as (_ & _ & _ & L & _). destruct (from_constructor_facts FC) as (_ & _ & LE & _).
  split.
  - intros (o & <- & Ho). apply (R g S) in Ho. destruct Ho as [Ho K]. exists o. split; [exact Ho|]. split; [reflexivity|]. apply permof_keeps; auto; congruence.
  - intros (o & Ho & -> & K). exists o. split; [reflexivity|]. apply (R g S). split; [exact Ho|]. apply permof_keeps; auto; congruence.
Qed.
Lemma equivalent_rel g x y : same_frame c g -> equivalent (sym_perm (occ_of g)) x y <-> rl (keeps (numbers g)) x y.
Proof. intros S. split; intros (p & Hp & R); exists p; (split; [|exact R]); now apply (in_perms p S). Qed.
Lemma occ_facts g : same_frame c g -> perm_group (length (numbers g)) (sym_perm (occ_of g)) /\ preserves (sym_perm (occ_of g)) (numbers g).
Proof.
  intros S. destruct REP as [X R]. destruct (keeping_group DIS X (R g S)) as [X' K']. pose proof S as (_ & P & _).
  destruct (frame_fc S) as (lat & pos & nums & L & NEW). rewrite <- P in *.
  destruct (generator_facts L NEW DIS X' K' (occ_new S)) as (_ & _ & _ & HG & PR & _). split; assumption.
Qed.

Lemma composed_prefix init n v rest k y x : new_species init ele ((n, v) :: rest) -> composed init ele [(n, v)] y -> composed y ele (firstn k rest) x ->
  composed init ele (firstn (S k) ((n, v) :: rest)) x.
Proof.
  intros NS Hy Hx. cbn [firstn]. apply (@composed_step init ele n v (firstn k rest)); [|eauto]. destruct NS as [ND NI].
  assert (IN : forall s, In s (firstn k rest) -> In s rest) by (intros s Hs; rewrite <- (firstn_skipn k rest); apply in_or_app; now left). split.
  - cbn [map snd] in *. inversion ND as [|? ? N1 N2]; subst. inversion N2 as [|? ? N3 N4]; subst. rewrite <- firstn_map.
    assert (IM : forall a, In a (firstn k (map snd rest)) -> In a (map snd rest)) by (intros a Ha; rewrite <- (firstn_skipn k (map snd rest)); apply in_or_app; now left).
    constructor; [intros [E|I]; apply N1; [now left|right; auto]|]. constructor; [auto|].
    rewrite <- (firstn_skipn k (map snd rest)) in N4. clear - N4. revert N4. generalize (firstn k (map snd rest)) (skipn k (map snd rest)). intros l m N4. induction l as [|a l IHl]; constructor; inversion N4; subst; [|auto]. intros I. apply H1. apply in_or_app. now left.
  - intros s [<-|Hs]; [apply NI; now left|]. apply NI. right. auto.
Qed.

Lemma steps_lemma steps : forall g, same_frame c g -> new_species (numbers g) ele steps ->
  (forall k, collision_free h (composed (numbers g) ele (firstn k steps))) ->
  let t := one_by_one h spg wy ele steps g in
  stop t = None /\ Forall (same_frame c) (items t) /\ transversal (rl (keeps (numbers g))) (composed (numbers g) ele steps) (map numbers (items t)).
Proof.
  induction steps as [|[n v] rest IH]; intros g SF NS CF; cbv zeta.
  - cbn [one_by_one items stop map]. split; [reflexivity|]. split; [constructor; [exact SF|constructor]|]. split; [|split].
    + constructor; [|constructor]. now apply composed_nil.
    + intros x Hx. apply composed_nil in Hx. subst x. exists (numbers g). split; [now left|]. apply (equivalent_rel _ _ SF).
      apply (equivalent_refl (proj1 (occ_facts SF))). reflexivity.
    + repeat constructor.
  - cbn [one_by_one]. rewrite (occ_new SF). set (t1 := gen_nodup_of_ele h (occ_of g) ele (Z.of_nat n) v). cbv zeta.
    destruct (occ_facts SF) as [HG PR]. assert (Nv : ~ In v (numbers g)) by (apply (proj2 NS (n, v)); now left).
    assert (CF1 : collision_free h (k_fold (numbers g) (site_holds (numbers g) ele) n v)).
    { intros x y Hx Hy. apply (CF 1); cbn [firstn]; now apply kfold_composed. }
    destruct (@C19_ele h (occ_of g) (frame_fc SF) HG PR ele n v CF1) as (ST & FR & TR). fold t1 in ST, FR, TR. cbn [occ_of init_cell] in FR, TR. fold (occ_of g) in TR.
    assert (FR1 : Forall (same_frame c) (items t1)).
    { eapply Forall_impl; [|exact FR]. intros d (A1 & A2 & A3 & A4 & A5). destruct SF as (B1 & B2 & B3 & B4 & B5). repeat split; congruence. }
    rewrite Forall_forall in FR1.
    assert (TR1 : transversal (rl (keeps (numbers g))) (composed (numbers g) ele [(n, v)]) (map numbers (items t1))).
    { apply (@transversal_dom _ _ (k_fold (numbers g) (site_holds (numbers g) ele) n v)); [intros x; now apply kfold_composed|].
      refine (transversal_rel _ TR). intros x y _. now apply equivalent_rel. }
    assert (D1 : forall d, In d (items t1) -> composed (numbers g) ele [(n, v)] (numbers d)).
    { intros d Hd. destruct TR1 as (F & _). rewrite Forall_forall in F. apply F. now apply in_map. }
    assert (IH1 : forall d, In d (items t1) -> let t := one_by_one h spg wy ele rest d in
      stop t = None /\ Forall (same_frame c) (items t) /\ transversal (rl (keeps (numbers d))) (composed (numbers d) ele rest) (map numbers (items t))).
    { intros d Hd. apply IH; [auto|exact (composed_new NS (D1 d Hd))|]. intros k x y Hx Hy. apply (CF (S k)); [exact (composed_prefix NS (D1 d Hd) Hx)|exact (composed_prefix NS (D1 d Hd) Hy)]. }
    assert (FL : gen_flat (one_by_one h spg wy ele rest) (items t1) = mkTrace (flat_map (fun d => items (one_by_one h spg wy ele rest d)) (items t1)) None).
    { apply gen_flat_ok. intros d Hd. destruct (IH1 d Hd) as (E & _). destruct (one_by_one h spg wy ele rest d) as [it so]. cbn in *. now rewrite E. }
    rewrite FL. cbn [items stop]. split; [exact ST|]. split.
    { apply Forall_forall. intros d Hd. apply in_flat_map in Hd. destruct Hd as (e & He & Hd). destruct (IH1 e He) as (_ & F & _). rewrite Forall_forall in F. auto. }
    set (zs := fun y => map numbers (items (one_by_one h spg wy ele rest (cellof c y)))).
    assert (EQ : map numbers (flat_map (fun d => items (one_by_one h spg wy ele rest d)) (items t1)) = flat_map zs (map numbers (items t1))).
    { clear - FR1 FC. induction (items t1) as [|d l IHl]; [reflexivity|]. cbn [flat_map map]. rewrite map_app, IHl by (intros e He; apply FR1; now right).
      f_equal. unfold zs. now rewrite <- (frame_cellof (FR1 d (or_introl eq_refl))). }
    rewrite EQ. apply (@transversal_dom _ _ (fun x => exists y, composed (numbers g) ele [(n, v)] y /\ composed y ele rest x)).
    { intros x. symmetry. now apply composed_step. }
    assert (PP : forall p, keeps (numbers g) p -> Permutation p (seq 0 (length (numbers g)))).
    { intros p Hp. apply (in_perms p SF) in Hp. now apply (proj1 HG). }
    assert (PG : forall p, keeps (numbers g) p -> reordered (numbers g) p (numbers g)) by (intros p (o & _ & _ & R); exact R).
    apply two_steps.
    + intros y x p x' Hy Hx Hp R. destruct (@reordered_exists _ y p (length (numbers g)) (PP p Hp)) as (y' & Ry & _); [apply Hy|].
      exists y'. split; [exact Ry|]. split; [exact (composed_moved (PP p Hp) eq_refl (PG p Hp) Ry Hy)|]. exact (composed_moved (PP p Hp) (proj1 Hy) Ry R Hx).
    + intros y x p y' Hy Hx Hp R. destruct (@reordered_exists _ x p (length (numbers g)) (PP p Hp)) as (x' & Rx & _); [rewrite (proj1 Hx); apply Hy|].
      exists x'. split; [exact Rx|]. exact (composed_moved (PP p Hp) (proj1 Hy) R Rx Hx).
    + intros y y' x Hy Hy' Hx Hx'. rewrite <- (composed_back (proj2 (composed_new NS Hy)) Hx). exact (composed_back (proj2 (composed_new NS Hy')) Hx').
    + intros y x z w Hy Hx E1 E2. apply (equivalent_rel _ _ SF). apply (equivalent_rel _ _ SF) in E1, E2.
      refine (equivalent_trans HG _ E1 E2). rewrite (proj1 Hx). apply Hy.
    + exact TR1.
    + intros y Hy. apply in_map_iff in Hy. destruct Hy as (d & <- & Hd). unfold zs. rewrite <- (frame_cellof (FR1 d Hd)).
      destruct (IH1 d Hd) as (_ & _ & T). refine (transversal_rel _ T). intros x z _.
      assert (KK : forall p, keeps (numbers d) p <-> fixing (fun p x y => reordered x p y) (keeps (numbers g)) (numbers d) p).
      { intros p. split.
        - intros (o & Ho & -> & R). split; [|exact R]. exists o. split; [exact Ho|]. split; [reflexivity|].
          apply (reordered_map1 (fun a => if in_dec Z.eq_dec a (map snd [(n, v)]) then ele else a)) in R.
          fold (put_back ele (map snd [(n, v)]) (numbers d)) in R. rewrite (composed_back (init := numbers g)) in R; [exact R| |exact (D1 d Hd)].
          intros s [<-|[]]. exact Nv.
        - intros ((o & Ho & -> & _) & R). exists o. auto. }
      split; intros (p & Hp & R); exists p; (split; [apply KK; exact Hp|exact R]).
Qed.
End Steps.
