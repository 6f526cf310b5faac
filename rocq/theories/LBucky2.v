(** C62: class counts, direct enumeration, short arrays. *)
From Coq Require Import Sorted.
From Verif Require LGeneralCell LGrid.
From Verif Require Import Base LBase BaseQ MComb SSubst LComb SSym LSym LFilter LDup LLevels SGeneralCell LMisc
  MBuckyTable MBucky SBucky LBucky LBuckyTable LBuckyGeo LQ MSort SSort LSort LIO5.
Set Implicit Arguments.
Unset Strict Implicit.
Open Scope nat_scope.

(** ** two transversals of the same classes have the same size *)
Section Size.
Context (A : Type) (E : A -> A -> Prop) (D : A -> Prop).
Hypothesis Esym : forall x y, D x -> D y -> E x y -> E y x.
Hypothesis Etrans : forall x y z, D x -> D y -> D z -> E x y -> E y z -> E x z.

Lemma transversal_le l1 : forall l2, Forall D l1 -> Forall D l2 ->
  ForallOrdPairs (fun a b => ~ E a b /\ ~ E b a) l1 ->
  (forall x, In x l1 -> exists y, In y l2 /\ E x y) -> length l1 <= length l2.
Proof.
  induction l1 as [|x l1 IH]; intros l2 D1 D2 O C; [cbn; lia|].
  destruct (C x (or_introl eq_refl)) as [y [Hy Exy]]. apply in_split in Hy. destruct Hy as [a [b ->]].
  inversion O as [|? ? O1 O2]; subst. inversion D1 as [|? ? Dx D1']; subst. rewrite Forall_forall in O1, D1', D2.
  rewrite app_length. cbn [length]. assert (L : length l1 <= length (a ++ b)).
  { apply IH; [now apply Forall_forall| |assumption|].
    - apply Forall_forall. intros z Hz. apply D2. apply in_app_iff in Hz. apply in_app_iff. destruct Hz; [now left|right; now right].
    - intros z Hz. destruct (C z (or_intror Hz)) as [w [Hw Ezw]]. exists w. split; [|assumption].
      apply in_app_iff in Hw. apply in_app_iff. destruct Hw as [Hw|[<-|Hw]]; [now left| |now right].
      exfalso. destruct (O1 z Hz) as [N _]. apply N.
      assert (Dy : D y) by (apply D2, in_app_iff; right; now left).
      apply Etrans with y; auto. }
  rewrite app_length in L. lia.
Qed.

Lemma transversal_length l1 l2 : transversal E D l1 -> transversal E D l2 -> length l1 = length l2.
Proof.
  intros [F1 [C1 O1]] [F2 [C2 O2]]. apply Nat.le_antisymm; apply transversal_le; auto.
  - intros x Hx. apply C2. rewrite Forall_forall in F1. auto.
  - intros x Hx. apply C1. rewrite Forall_forall in F2. auto.
Qed.
End Size.

(** ** a collision-free hash for decorations with carbon and boron *)
Definition bin (x : list Z) : Z := fold_right (fun z a => if Z.eqb z 5 then Z.succ_double a else Z.double a) 0%Z x.
Lemma bin_cons z x : bin (z :: x) = (2 * bin x + if Z.eqb z 5 then 1 else 0)%Z.
Proof. cbn [bin fold_right]. fold (bin x). destruct (Z.eqb z 5); [rewrite Z.succ_double_spec|rewrite Z.double_spec]; lia. Qed.
Lemma bin_inj x : forall y, length x = length y -> Forall (fun z => z = 5 \/ z = 6)%Z x -> Forall (fun z => z = 5 \/ z = 6)%Z y ->
  bin x = bin y -> x = y.
Proof.
  induction x as [|a x IH]; intros [|b y] L Fx Fy; try discriminate; [reflexivity|].
  inversion Fx as [|? ? Ha Fx']; inversion Fy as [|? ? Hb Fy']; subst. rewrite !bin_cons. intros E.
  injection L as L. destruct Ha as [-> | ->], Hb as [-> | ->]; cbn [Z.eqb Pos.eqb] in E; try lia; f_equal; apply IH; auto; lia.
Qed.

Lemma images_two G init P k : perm_group (length init) G -> Forall (fun z => z = 5 \/ z = 6)%Z init ->
  collision_free bin (images G (k_fold init P k 5%Z)).
Proof.
  intros [HP _] F x y Hx Hy E.
  assert (B : forall x, images G (k_fold init P k 5%Z) x -> length x = length init /\ Forall (fun z => z = 5 \/ z = 6)%Z x).
  { clear x y Hx Hy E. intros y [x [[S [_ [L H]]] [p [Hp R]]]]. split; [rewrite (reordered_length R); now apply perm_length, HP|].
    apply Forall_forall. intros z Hz. apply In_nth_error in Hz. destruct Hz as [i Hi]. rewrite (reordered_nth i R) in Hi.
    destruct (nth_error p i) as [j|]; [|discriminate].
    assert (Lj : j < length init) by (rewrite <- L; apply nth_error_Some; congruence).
    destruct (nth_error init j) as [a|] eqn:Ea; [|apply nth_error_None in Ea; lia].
    destruct (H j a Ea) as [H1 H2]. destruct (in_dec Nat.eq_dec j S) as [I|I].
    - rewrite (H1 I) in Hi. injection Hi as <-. now left.
    - rewrite (H2 I) in Hi. injection Hi as <-. rewrite Forall_forall in F. apply F. eapply nth_error_In; eauto. }
  destruct (B x Hx), (B y Hy). apply bin_inj; auto. congruence.
Qed.

Definition carbon : list Z := repeat 6%Z 60.
Definition ball (nums : list Z) : bucky := mkBucky bucky_lattice (map (vmap toq) bz) nums bucky_perm_table.

Lemma carbon_counts_bin : map (fun t => length (items t)) (b_all_speckle_gen bin (ball carbon) 3 5) = [1; 1; 23; 303].
Proof. vm_compute. reflexivity. Qed.

Lemma C62_counts_lemma h : (forall k, k <= 3 -> collision_free h (images bucky_perm_table (k_fold carbon (site_not carbon 5%Z) k 5%Z))) ->
  map (fun t => length (items t)) (b_all_speckle_gen h (ball carbon) 3 5) = [1; 1; 23; 303].
Proof.
  intros CF. rewrite <- carbon_counts_bin.
  assert (GB : perm_group 60 (b_sym_perm (ball carbon))) by exact bucky_group.
  assert (LB : length (b_numbers (ball carbon)) = 60) by reflexivity.
  assert (L3 : forall h, length (b_all_speckle_gen h (ball carbon) 3 5) = 4) by (intros h'; rewrite b_all_length; reflexivity).
  apply list_ext. intros k. rewrite !nth_error_map.
  destruct (nth_error (b_all_speckle_gen h (ball carbon) 3 5) k) as [t|] eqn:E1.
  - assert (Hk : k < 4) by (rewrite <- (L3 h); apply nth_error_Some; congruence).
    destruct (nth_error (b_all_speckle_gen bin (ball carbon) 3 5) k) as [t'|] eqn:E2;
      [|apply nth_error_None in E2; rewrite L3 in E2; lia]. cbn [option_map]. f_equal.
    apply (b_all_transversal GB LB) in E1; [|intros m Hm; rewrite L3 in Hm; apply CF; lia].
    apply (b_all_transversal GB LB) in E2; [|intros m Hm; apply images_two; [exact bucky_group|apply Forall_forall; intros z Hz; apply repeat_spec in Hz; auto]].
    eapply transversal_length; [| |exact E1|exact E2].
    + intros x y Dx Dy. apply (equivalent_sym GB). apply kfold_length in Dx. exact Dx.
    + intros x y z Dx Dy Dz. apply (equivalent_trans GB). apply kfold_length in Dx. exact Dx.
  - apply nth_error_None in E1. rewrite L3 in E1. destruct (nth_error (b_all_speckle_gen bin (ball carbon) 3 5) k) eqn:E2; [|reflexivity].
    assert (k < 4) by (rewrite <- (L3 bin); apply nth_error_Some; congruence). lia.
Qed.

(** ** gen_speckle *)
Lemma gen_speckle_ok sp k : gen_speckle sp (Z.of_nat k) = mkTrace (map (fun c => puts carbon c sp) (combos (range 60) k)) None.
Proof.
  unfold gen_speckle, combinations. destruct (Z.ltb_spec (Z.of_nat k) 0); [lia|]. rewrite Nat2Z.id.
  apply gen_map_ok. intros c Hc. apply put_ok. intros i Hi. apply combos_In in Hc. destruct Hc as [Hc _].
  apply (subseq_incl Hc) in Hi. apply in_seq in Hi. unfold carbon in *. rewrite repeat_length. lia.
Qed.

Lemma puts_sub c k sp : In c (combos (range 60) k) -> substituted carbon c sp (puts carbon c sp).
Proof.
  intros Hc. apply puts_substituted. intros i Hi. apply combos_In in Hc. destruct Hc as [Hc _].
  apply (subseq_incl Hc) in Hi. apply in_seq in Hi. unfold carbon. rewrite repeat_length. lia.
Qed.

Lemma gen_speckle_lemma sp k : stop (gen_speckle sp (Z.of_nat k)) = None /\
  exists Ss, all_subsets_once (fun i => i < 60) k Ss /\
    Forall2 (fun S x => substituted (repeat 6%Z 60) S sp x) Ss (items (gen_speckle sp (Z.of_nat k))).
Proof.
  rewrite gen_speckle_ok. cbn [items stop]. split; [reflexivity|]. exists (combos (range 60) k). split.
  - apply combos_all_subsets; [apply seq_NoDup|]. intros i. unfold range. rewrite in_seq. lia.
  - assert (I : incl (combos (range 60) k) (combos (range 60) k)) by apply incl_refl. revert I.
    generalize (combos (range 60) k) at 1 3 4. intros l. induction l as [|c l IH]; intros I; cbn [map]; [constructor|].
    constructor; [eapply puts_sub, I; now left|]. apply IH. intros d Hd. apply I. now right.
Qed.

Lemma direct_lemma h sp k nums : collision_free h (images bucky_perm_table (k_fold carbon (any_site carbon) k sp)) ->
  let t := to_nodup_generator h (ball nums) (gen_speckle sp (Z.of_nat k)) in
  stop t = None /\ transversal (equivalent bucky_perm_table) (k_fold carbon (any_site carbon) k sp) (items t).
Proof.
  intros CF. rewrite gen_speckle_ok. unfold to_nodup_generator. cbn [items stop b_sym_perm ball].
  set (dup := map _ _).
  assert (HD : forall x, In x dup -> k_fold carbon (any_site carbon) k sp x).
  { intros x Hx. apply in_map_iff in Hx. destruct Hx as [c [<- Hc]]. exists c. split; [|eapply puts_sub; eauto].
    apply combos_In in Hc. destruct Hc as [Hc L]. split; [apply (subseq_NoDup Hc), seq_NoDup|]. split; [exact L|].
    intros i Hi. apply (subseq_incl Hc), in_seq in Hi. unfold any_site, carbon. rewrite repeat_length. lia. }
  assert (HC : forall x, k_fold carbon (any_site carbon) k sp x -> In x dup).
  { intros x [S [HS Hx]]. destruct (@combos_all_subsets (any_site carbon) (range 60) k) as [_ [K _]].
    - apply seq_NoDup.
    - intros i. unfold range, any_site, carbon. rewrite in_seq, repeat_length. lia.
    - destruct (K S HS) as [S' [HS' E]]. apply in_map_iff. exists S'. split; [|exact HS'].
      apply (@substituted_fun carbon S' S sp _ x); [intros i; symmetry; apply E|eapply puts_sub; eauto|exact Hx]. }
  assert (HL : forall x, In x dup -> length x = 60) by (intros x Hx; apply HD, kfold_length in Hx; exact Hx).
  destruct (b_filter h bucky_group None HL) as [out [E [S1 [S2 S3]]]].
  rewrite E. cbn [items stop]. split; [reflexivity|]. split; [|split; [|exact S2]].
  - apply Forall_forall. intros x Hx. apply HD, (subseq_incl S1), Hx.
  - intros x Hx. apply (S3 _ HD CF). now apply HC.
Qed.

(** ** arrays that are too short *)
Lemma take_idx_short (x : list Z) n : length x < n -> forall m, m <= length x -> take_idx x (seq m (n - m)) = Raise IndexError.
Proof.
  intros H. assert (K : forall d m, length x = m + d -> take_idx x (seq m (n - m)) = Raise IndexError).
  { induction d as [|d IH]; intros m E.
    - replace (n - m) with (S (n - m - 1)) by lia. cbn [seq]. unfold take_idx. cbn [mapM]. unfold get_nth at 1.
      now rewrite (proj2 (nth_error_None x m)) by lia.
    - replace (n - m) with (S (n - S m)) by lia. cbn [seq]. unfold take_idx. cbn [mapM].
      destruct (nth_error x m) eqn:En; [|apply nth_error_None in En; lia]. unfold get_nth at 1. rewrite En. cbn [bind].
      specialize (IH (S m) ltac:(lia)). unfold take_idx in IH. now rewrite IH. }
  intros m Hm. apply (K (length x - m)). lia.
Qed.

Lemma table_first : exists rest, bucky_perm_table = seq 0 60 :: rest.
Proof. exists (tl bucky_perm_table). vm_compute. reflexivity. Qed.

Lemma first_candidate h x sp : (exists a, In a x /\ a <> sp) ->
  exists i rest, i < length x /\ nth_error x i <> Some sp /\ b_add_outer h sp [] [x] None = mkTrace (upd x i sp :: rest) None.
Proof.
  intros [a [Ha Na]]. destruct (b_add_outer_spec h sp [x] [] None) as [l [E [H1 H2]]].
  apply In_nth_error in Ha. destruct Ha as [i Hi].
  destruct (H2 x i a (or_introl eq_refl) Hi Na) as [[]|[c [Hc _]]].
  destruct l as [|c' l]; [destruct Hc|]. destruct (H1 c' (or_introl eq_refl)) as [y [j [b [[<-|[]] [Hj [Nb ->]]]]]].
  exists j, l. split; [apply nth_error_Some; congruence|]. split; [congruence|exact E].
Qed.

Lemma short_lemma h nums sp n_max : length nums < 60 -> (exists a, In a nums /\ a <> sp) ->
  (Z.of_nat (count_occ Z.eq_dec nums sp) < n_max)%Z ->
  exists x, nth_error (b_all_speckle_gen h (ball nums) n_max sp) 1 = Some (mkTrace [x] (Some IndexError)).
Proof.
  intros L Ex Hn. unfold b_all_speckle_gen. rewrite b_speckle_num_spec. cbn [b_numbers ball nth_error].
  destruct (Z.to_nat (n_max - Z.of_nat (count_occ Z.eq_dec nums sp))) as [|m] eqn:Em; [lia|]. cbn [b_levels nth_error].
  destruct (first_candidate h Ex) as [i [rest [Hi [_ E]]]]. unfold to_nodup_generator, add_one_speckle_generator, b_to_gen. cbn [items stop b_numbers b_sym_perm ball].
  rewrite E. cbn [items stop b_nodup_loop memZ existsb].
  destruct table_first as [rs ->]. cbn [b_update_isoset].
  rewrite (@take_idx_short (upd nums i sp) 60); [|rewrite upd_length; exact L|lia]. cbn [bind]. eauto.
Qed.

(** *** the order of the sites *)
Lemma ball_key_ok x : ball_key x (bucky_tofrac1 x).
Proof.
  exists (around 5 x), (mod1 (around 5 x)), (Qcfloor (around 5 x)). split; [apply around_rounded|].
  split; [unfold mod1; ring|]. destruct (mod1_range (around 5 x)) as [A B]. split; [exact A|]. split; [exact B|].
  apply around_rounded.
Qed.
Lemma bucky_order pos : exists ks, Forall2 ball_keys pos ks /\ stable_argsort ks (bucky_new_id_seq pos).
Proof.
  exists (List.map (vmap bucky_tofrac1) pos). split; [|apply lexsort_spec].
  induction pos as [|p pos IH]; cbn [List.map]; constructor; [|exact IH]. repeat split; apply ball_key_ok.
Qed.
Lemma bucky_sites nums s : Structure_new nums = Ok s ->
  reordered bucky_json_positions (bucky_new_id_seq bucky_json_positions) (b_positions s) /\ b_numbers s = nums.
Proof.
  unfold Structure_new. cbv zeta. intros E.
  destruct (take_idx bucky_json_positions (bucky_new_id_seq bucky_json_positions)) as [p|] eqn:F; [|discriminate E].
  apply LGeneralCell.take_idx_reordered in F. change (Ok (mkBucky bucky_lattice p nums bucky_perm_table) = Ok s) in E.
  injection E as <-. split; [exact F|reflexivity].
Qed.

Lemma help_lemma l sp : stop (help_add_one_speckle l sp) = None /\
  exists idx, StronglySorted lt idx /\ (forall i, In i idx <-> exists a, nth_error l i = Some a /\ a <> sp) /\
    Forall2 (fun i x => length x = length l /\ nth_error x i = Some sp /\ forall j, j <> i -> nth_error x j = nth_error l j)
      idx (items (help_add_one_speckle l sp)).
Proof.
  unfold help_add_one_speckle. set (f := fun iv : nat * Z => negb (Z.eqb (snd iv) sp)).
  assert (IN : forall i a, In (i, a) (filter f (enumerate l)) <-> nth_error l i = Some a /\ a <> sp).
  { intros i a. rewrite filter_In, In_enumerate. unfold f. cbn [snd]. rewrite negb_true_iff, Z.eqb_neq. tauto. }
  rewrite (@gen_map_ok _ _ _ (fun iv => upd l (fst iv) sp)).
  2:{ intros [i a] I. apply IN in I as [I _]. apply set_nth_ok. apply nth_error_Some. cbn [fst]. congruence. }
  cbn [stop items]. split; [reflexivity|]. exists (map fst (filter f (enumerate l))). split; [|split].
  - assert (G : forall s, StronglySorted lt (map fst (filter f (combine (seq s (length l)) l))) /\
       forall i, In i (map fst (filter f (combine (seq s (length l)) l))) -> s <= i).
    { clear IN. induction l as [|x l IH]; intros s; cbn; [split; [constructor|intros i []]|]. destruct (IH (S s)) as [S1 S2]. destruct (f (s, x)); cbn.
      - split; [constructor; [exact S1|]; apply Forall_forall; intros i I; apply S2 in I; lia|]. intros i [<- |I]; [lia|apply S2 in I; lia].
      - split; [exact S1|]. intros i I. apply S2 in I. lia. }
    apply (G 0).
  - intros i. rewrite in_map_iff. split.
    + intros ([i' a] & <- & I). apply IN in I. exists a. exact I.
    + intros (a & H). exists (i, a). split; [reflexivity|]. now apply IN.
  - assert (B : forall iv, In iv (filter f (enumerate l)) -> fst iv < length l).
    { intros [i a] I. apply IN in I as [I _]. apply nth_error_Some. cbn [fst]. congruence. }
    clear IN. induction (filter f (enumerate l)) as [|iv t IHt]; cbn; constructor.
    + assert (K : fst iv < length l) by (apply B; now left). split; [apply LGrid.upd_length|]. split; [now apply LGrid.upd_same|].
      intros j N. apply LGrid.upd_other. congruence.
    + apply IHt. intros iv' I. apply B. now right.
Qed.
