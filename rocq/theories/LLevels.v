(** C21-C23, C25: level-by-level enumeration. *)
From Coq Require Import String.
From Verif Require Import Base LBase BaseQ MGeneralCell SGeneralCell LGeneralCell MComb SSubst LComb SSym LSym MSogen LFilter SOcc SEnum LDup.
Set Implicit Arguments.
Unset Strict Implicit.
Open Scope nat_scope.

Section AddOne.
Context (h : list Z -> Z) (c0 : gcell) (v : Z) (cond : nat -> Z -> bool).
Hypothesis FC : from_constructor c0.
Let n := length (numbers c0).

Lemma add_one_inner_spec x entries db : length x = n -> (forall i a, In (i, a) entries -> i < n) ->
  exists l db', add_one_inner h (cellof c0 x) v cond db entries = (l, db', None) /\
    (forall c, In c l -> exists i a, In (i, a) entries /\ cond i a = true /\ c = cellof c0 (upd x i v)) /\
    (forall z, In z db' <-> In z db \/ exists c, In c l /\ h (numbers c) = z) /\
    (forall i a, In (i, a) entries -> cond i a = true -> In (h (upd x i v)) db').
Proof.
  intros L. revert db. induction entries as [|[i a] es IH]; intros db HE; cbn [add_one_inner].
  - exists [], db. split; [reflexivity|]. split; [easy|]. split; [|easy]. intros z. split; [auto|]. intros [H|[c [[] _]]]; auto.
  - assert (HE' : forall i a, In (i, a) es -> i < n) by (intros j b Hj; apply (HE j b); now right).
    destruct (cond i a) eqn:Ec.
    + cbn [numbers cellof]. rewrite set_nth_ok by (rewrite L; apply (HE i a); now left).
      destruct (memZ (h (upd x i v)) db) eqn:Em.
      * destruct (IH db HE') as [l [db' [E [H1 [H2 H3]]]]]. exists l, db'. split; [exact E|]. split; [|split].
        -- intros c Hc. destruct (H1 c Hc) as [j [b [K1 K2]]]. exists j, b. split; [now right|assumption].
        -- exact H2.
        -- intros j b [K|K] C; [|eauto]. injection K as <- <-. apply H2. left. now apply memZ_In.
      * cbn [lattice positions cellof]. rewrite new_cellof by (try rewrite upd_length; auto).
        destruct (IH (h (upd x i v) :: db) HE') as [l [db' [E [H1 [H2 H3]]]]].
        rewrite E. exists (cellof c0 (upd x i v) :: l), db'. split; [reflexivity|]. split; [|split].
        -- intros c [<-|Hc]; [exists i, a; split; [now left|auto]|].
           destruct (H1 c Hc) as [j [b [K1 K2]]]. exists j, b. split; [now right|assumption].
        -- intros z. rewrite H2. split.
           ++ intros [[<-|K]|[c [Hc K]]]; [right|now left|right].
              ** exists (cellof c0 (upd x i v)). split; [now left|reflexivity].
              ** exists c. split; [now right|assumption].
           ++ intros [K|[c [[<-|Hc] K]]]; [left; now right|left; left; exact K|right; eauto].
        -- intros j b [K|K] C; [|eauto]. injection K as <- <-. apply H2. left. now left.
    + destruct (IH db HE') as [l [db' [E [H1 [H2 H3]]]]]. exists l, db'. split; [exact E|]. split; [|split].
      * intros c Hc. destruct (H1 c Hc) as [j [b [K1 K2]]]. exists j, b. split; [now right|assumption].
      * exact H2.
      * intros j b [K|K] C; [|eauto]. congruence.
Qed.

Lemma add_one_outer_spec xs db fin : (forall x, In x xs -> length x = n) ->
  exists l, add_one_outer h v cond db (map (cellof c0) xs) fin = mkTrace l fin /\
    (forall c, In c l -> exists x i a, In x xs /\ nth_error x i = Some a /\ cond i a = true /\ c = cellof c0 (upd x i v)) /\
    (forall x i a, In x xs -> nth_error x i = Some a -> cond i a = true ->
       In (h (upd x i v)) db \/ exists c, In c l /\ h (numbers c) = h (upd x i v)).
Proof.
  revert db. induction xs as [|x xs IH]; intros db HL; cbn [add_one_outer map].
  - exists []. split; [reflexivity|]. split; easy.
  - assert (Lx : length x = n) by (apply HL; now left).
    destruct (@add_one_inner_spec x (enumerate x) db Lx) as [l [db' [E [H1 [H2 H3]]]]].
    { intros i a K. apply In_enumerate in K. rewrite <- Lx. apply nth_error_Some. congruence. }
    change (numbers (cellof c0 x)) with x. rewrite E.
    destruct (IH db') as [l' [E' [K1 K2]]]; [intros y Hy; apply HL; now right|].
    rewrite E'. cbn [items stop]. exists (l ++ l'). split; [reflexivity|]. split.
    + intros c Hc. apply in_app_iff in Hc. destruct Hc as [Hc|Hc].
      * destruct (H1 c Hc) as [i [a [A1 [A2 A3]]]]. exists x, i, a. apply In_enumerate in A1. split; [now left|auto].
      * destruct (K1 c Hc) as [y [i [a [A1 A2]]]]. exists y, i, a. split; [now right|assumption].
    + intros y i a [<-|Hy] N C.
      * assert (I : In (h (upd x i v)) db') by (apply H3 with a; [now apply In_enumerate|assumption]).
        apply H2 in I. destruct I as [I|[c [Hc I]]]; [now left|]. right. exists c. split; [apply in_app_iff; now left|assumption].
      * destruct (K2 y i a Hy N C) as [I|[c [Hc I]]].
        -- apply H2 in I. destruct I as [I|[c [Hc I]]]; [now left|]. right. exists c. split; [apply in_app_iff; now left|assumption].
        -- right. exists c. split; [apply in_app_iff; now right|assumption].
Qed.
End AddOne.

Lemma kfold_zero init P v x : k_fold init P 0 v x <-> x = init.
Proof.
  split.
  - intros [S [[_ [LS _]] HS]]. destruct S; [|discriminate]. apply (substituted_fun (S := []) (S' := []) (v := v) (init := init)); [easy|exact HS|].
    split; [reflexivity|]. intros i a Ha. split; [intros []|auto].
  - intros ->. exists []. split; [split; [constructor|split; [reflexivity|easy]]|]. split; [reflexivity|]. intros i a Ha. split; [intros []|auto].
Qed.

Lemma nth_error_upd A (l : list A) i j v : i < length l ->
  nth_error (upd l i v) j = if Nat.eqb i j then Some v else nth_error l j.
Proof.
  revert i j; induction l as [|x l IH]; intros i j H; [cbn in H; lia|].
  destruct i as [|i], j as [|j]; cbn; try reflexivity. apply IH. cbn in H. lia.
Qed.

Section Level.
Context (init : list Z) (P : nat -> Prop) (v : Z) (cond : nat -> Z -> bool).
Hypothesis PN : forall i, P i -> site_not init v i.
Hypothesis CO : forall k x i a, k_fold init P k v x -> nth_error x i = Some a -> (cond i a = true <-> P i /\ a <> v).

Lemma PL i : P i -> i < length init.
Proof. intros H. destruct (PN H) as [a [Ha _]]. apply nth_error_Some. congruence. Qed.

Lemma kfold_add k x i a : k_fold init P k v x -> nth_error x i = Some a -> cond i a = true ->
  k_fold init P (S k) v (upd x i v).
Proof.
  intros Hk Ha C. apply (CO Hk Ha) in C. destruct C as [Pi Na]. destruct Hk as [S [[ND [LS HS]] [Lx Hx]]].
  assert (Hi : i < length x) by (apply nth_error_Some; congruence).
  assert (Ni : ~ In i S).
  { intros Hin. destruct (PN Pi) as [b [Hb _]]. destruct (Hx i b Hb) as [E _]. rewrite (E Hin) in Ha. congruence. }
  exists (i :: S). split.
  - split; [now constructor|]. split; [cbn; congruence|]. intros j [<-|Hj]; auto.
  - split; [now rewrite upd_length|]. intros j b Hb. rewrite nth_error_upd by assumption.
    destruct (Hx j b Hb) as [E1 E2]. destruct (Nat.eqb_spec i j) as [->|Nij].
    + split; [reflexivity|]. intros K. exfalso. apply K. now left.
    + split; [intros [K|K]; [contradiction|auto]|]. intros K. apply E2. intros K2. apply K. now right.
Qed.

Lemma kfold_remove k x : k_fold init P (S k) v x ->
  exists i b, P i /\ nth_error x i = Some v /\ nth_error init i = Some b /\ b <> v /\ k_fold init P k v (upd x i b).
Proof.
  intros [S' [[ND [LS HS]] [Lx Hx]]]. destruct S' as [|i S']; [discriminate|].
  assert (Pi : P i) by (apply HS; now left). destruct (PN Pi) as [b [Hb Nb]].
  assert (Hi : i < length x) by (rewrite Lx; now apply PL).
  exists i, b. split; [assumption|]. split; [apply (Hx i b Hb); now left|]. split; [assumption|]. split; [assumption|].
  inversion ND as [|? ? N1 N2]; subst. exists S'. split.
  - split; [assumption|]. split; [cbn in LS; congruence|]. intros j Hj. apply HS. now right.
  - split; [now rewrite upd_length|]. intros j a Ha. rewrite nth_error_upd by assumption. destruct (Hx j a Ha) as [E1 E2].
    destruct (Nat.eqb_spec i j) as [<-|Nij].
    + split; [contradiction|]. intros _. congruence.
    + split; [intros K; apply E1; now right|]. intros K. apply E2. intros [K2|K2]; contradiction.
Qed.

Context (h : list Z -> Z) (o : occ).
Hypothesis FC : from_constructor (init_cell o).
Hypothesis Einit : numbers (init_cell o) = init.

Definition sound k (t : trace gcell) := exists xs, items t = map (cellof (init_cell o)) xs /\ Forall (k_fold init P k v) xs.

Lemma sound_length k xs : Forall (k_fold init P k v) xs -> forall x, In x xs -> length x = length (numbers (init_cell o)).
Proof. intros F x Hx. rewrite Einit. rewrite Forall_forall in F. eapply kfold_length. eauto. Qed.

Lemma nodup_loop_subseq G act iso cells fin : subseq (items (nodup_loop h G act iso cells fin)) cells.
Proof.
  revert iso. induction cells as [|c cells IH]; intros iso; cbn; [constructor|].
  destruct (memZ _ iso); [constructor; apply IH|]. destruct (update_isoset _ _ _ _); cbn; constructor; [apply IH|].
  clear. induction cells; constructor; assumption.
Qed.

Lemma step_sound k t : sound k t -> sound (S k) (gen_2nodup_gen h o (add_one_outer h v cond [] (items t) (stop t))).
Proof.
  intros [xs [E F]]. rewrite E.
  destruct (@add_one_outer_spec h (init_cell o) v cond FC xs [] (stop t) (sound_length F)) as [l [El [H1 _]]].
  rewrite El. unfold gen_2nodup_gen, gen_2nodup_gen_with. cbn [items stop].
  pose proof (nodup_loop_subseq (sym_perm o) (fun c => c) [] l (stop t)) as SS.
  unfold sound. set (out := items (nodup_loop h (sym_perm o) (fun c => c) [] l (stop t))) in *. assert (HO : forall c, In c out -> exists x, c = cellof (init_cell o) x /\ k_fold init P (S k) v x).
  { intros c Hc. apply (subseq_incl SS) in Hc. destruct (H1 c Hc) as [x [i [a [A1 [A2 [A3 ->]]]]]].
    exists (upd x i v). split; [reflexivity|]. rewrite Forall_forall in F. eapply kfold_add; eauto. }
  clear - HO. induction out as [|c out IH].
  - exists []. split; [reflexivity|constructor].
  - destruct (HO c) as [x [-> Hx]]; [now left|]. destruct IH as [ys [-> F]]; [intros d Hd; apply HO; now right|].
    exists (x :: ys). split; [reflexivity|now constructor].
Qed.

Lemma levels_sound count k t j lt :
  sound k t ->
  nth_error (levels (fun gen => gen_2nodup_gen h o (add_one_outer h v cond [] (items gen) (stop gen))) count t) j = Some lt ->
  sound (k + S j) lt.
Proof.
  revert k t j. induction count as [|count IH]; intros k t j St; cbn [levels]; [destruct j; discriminate|].
  apply step_sound in St. destruct j as [|j]; cbn.
  - intros E. injection E as <-. now rewrite Nat.add_1_r.
  - intros E. replace (k + S (S j)) with (S k + S j) by lia. eapply IH; eauto.
Qed.

Context (G := sym_perm o).
Hypothesis HG : perm_group (length init) G.
Hypothesis Pr : preserves G init.
Hypothesis Inv : invariant G P.

Lemma step_transversal k t : sound k t -> stop t = None ->
  transversal (equivalent G) (k_fold init P k v) (map numbers (items t)) ->
  collision_free h (k_fold init P (S k) v) ->
  let t' := gen_2nodup_gen h o (add_one_outer h v cond [] (items t) (stop t)) in
  stop t' = None /\ transversal (equivalent G) (k_fold init P (S k) v) (map numbers (items t')).
Proof.
  intros [xs [E F]] St [_ [T2 _]] CF t'. unfold t'. rewrite E, St. clear t'.
  rewrite E, map_map in T2. cbn in T2. rewrite map_id in T2.
  destruct (@add_one_outer_spec h (init_cell o) v cond FC xs [] None (sound_length F)) as [l [El [H1 H2]]].
  rewrite El. rewrite Forall_forall in F.
  assert (HD : forall c, In c l -> k_fold init P (S k) v (numbers c)).
  { intros c Hc. destruct (H1 c Hc) as [x [i [a [A1 [A2 [A3 ->]]]]]]. cbn. eapply kfold_add; eauto. }
  assert (HL : forall c, In c (items (mkTrace l None)) -> length (numbers c) = length init).
  { intros c Hc. eapply kfold_length. apply HD. exact Hc. }
  split; [now destruct (C18_lemma h HG HL) as [_ [-> _]]|].
  apply filter_transversal with (n := length init); auto.
  - intros x Hx. eapply kfold_length; eauto.
  - intros x y Hx Eq. refine (kfold_closed (init := init) HG eq_refl Pr Inv _ Hx Eq). intros i. apply PL.
  - intros x Hx. destruct (kfold_remove Hx) as [i [b [Pi [Xi [Bi [Nb Hx']]]]]].
    assert (Lx : length x = length init) by (eapply kfold_length; eauto).
    assert (Hi : i < length init) by now apply PL.
    destruct (T2 (upd x i b) Hx') as [y [Hy [p [Hp R]]]].
    destruct HG as [HP _]. pose proof (HP p Hp) as Pp. destruct (perm_surj Pp Hi) as [j [Hj Ej]].
    assert (Yj : nth_error y j = Some b).
    { rewrite (reordered_nth j R), Ej, nth_error_upd by lia. now rewrite Nat.eqb_refl. }
    assert (C : cond j b = true).
    { apply (CO (F y Hy) Yj). split; [|assumption]. now apply (Inv Hp Ej). }
    assert (Eq : equivalent G x (upd y j v)).
    { exists p. split; [assumption|]. apply reordered_intro.
      - rewrite upd_length. apply (reordered_length R).
      - intros m q Em. rewrite nth_error_upd by (rewrite (reordered_length R), (perm_length Pp); assumption).
        destruct (Nat.eqb_spec j m) as [<-|Njm].
        + rewrite Ej in Em. injection Em as <-. eauto.
        + rewrite (reordered_nth m R), Em, nth_error_upd by lia.
          destruct (Nat.eqb_spec i q) as [<-|Niq]; [exfalso; apply Njm; apply (perm_inj Pp Ej Em)|].
          destruct (nth_error x q) as [a|] eqn:Eq; [eauto|]. exfalso. apply nth_error_None in Eq.
          pose proof (perm_lt Pp Em). lia. }
    destruct (H2 y j b Hy Yj C) as [[]|[c [Hc Hh]]]. exists c. split; [exact Hc|].
    replace (numbers c) with (upd y j v); [exact Eq|]. symmetry. apply CF; [auto| |exact Hh].
    eapply kfold_add; eauto.
Qed.

Lemma levels_transversal count k t j lt :
  sound k t -> stop t = None ->
  transversal (equivalent G) (k_fold init P k v) (map numbers (items t)) ->
  (forall m, m <= k + count -> collision_free h (k_fold init P m v)) ->
  nth_error (levels (fun gen => gen_2nodup_gen h o (add_one_outer h v cond [] (items gen) (stop gen))) count t) j = Some lt ->
  stop lt = None /\ transversal (equivalent G) (k_fold init P (k + S j) v) (map numbers (items lt)).
Proof.
  revert k t j. induction count as [|count IH]; intros k t j S1 S2 T CF; cbn [levels]; [destruct j; discriminate|].
  destruct (step_transversal S1 S2 T) as [T1 T2]; [apply CF; lia|]. pose proof (step_sound S1) as S3.
  destruct j as [|j]; cbn.
  - intros E. injection E as <-. rewrite Nat.add_1_r. auto.
  - intros E. replace (k + S (S j)) with (S k + S j) by lia. eapply IH; eauto. intros m Hm. apply CF. lia.
Qed.
End Level.

Lemma levels_length step count t : length (levels step count t) = count.
Proof. revert t; induction count; intros t; cbn; auto. Qed.

Lemma sound_init o P v : from_constructor (init_cell o) ->
  sound (numbers (init_cell o)) P v o 0 (mkTrace [init_cell o] None).
Proof.
  intros FC. exists [numbers (init_cell o)]. split.
  - cbn. f_equal. destruct (from_constructor_facts FC) as [_ [_ [_ [_ E]]]]. exact E.
  - constructor; [now apply kfold_zero|constructor].
Qed.

Lemma sound_frame o P v k t : from_constructor (init_cell o) -> sound (numbers (init_cell o)) P v o k t ->
  Forall (same_frame (init_cell o)) (items t) /\ Forall (fun c => k_fold (numbers (init_cell o)) P k v (numbers c)) (items t).
Proof.
  intros FC [xs [-> F]]. rewrite Forall_forall in F. split; apply Forall_forall; intros c Hc; apply in_map_iff in Hc; destruct Hc as [x [<- Hx]].
  - apply cellof_frame; [assumption|]. eapply kfold_length. eauto.
  - cbn. auto.
Qed.

Definition level_sound_statement (o : occ) (P : nat -> Prop) (sp : Z) (lv : list (trace gcell)) : Prop :=
  forall k t, nth_error lv k = Some t ->
    Forall (same_frame (init_cell o)) (items t) /\
    Forall (fun c => k_fold (numbers (init_cell o)) P (S k) sp (numbers c)) (items t).

Section Final.
Context (h : list Z -> Z) (o : occ) (P : nat -> Prop) (sp : Z) (cond : nat -> Z -> bool).
Let init := numbers (init_cell o).
Hypothesis FC : from_constructor (init_cell o).
Hypothesis PN : forall i, P i -> site_not init sp i.
Hypothesis CO : forall k x i a, k_fold init P k sp x -> nth_error x i = Some a -> (cond i a = true <-> P i /\ a <> sp).

Lemma level_sound_final count : level_sound_statement o P sp
  (levels (fun gen => gen_2nodup_gen h o (add_one_outer h sp cond [] (items gen) (stop gen))) count (mkTrace [init_cell o] None)).
Proof.
  intros k t E. apply sound_frame; [assumption|].
  apply (@levels_sound init P sp cond PN CO h o FC eq_refl) with (k := 0) in E; [exact E|now apply sound_init].
Qed.

Lemma level_final n : 
  perm_group (length init) (sym_perm o) -> preserves (sym_perm o) init -> invariant (sym_perm o) P ->
  (forall k, (k <= Z.to_nat (n - Z.of_nat (count_occ Z.eq_dec init sp))) -> collision_free h (k_fold init P k sp)) ->
  level_statement o P n sp
  (levels (fun gen => gen_2nodup_gen h o (add_one_outer h sp cond [] (items gen) (stop gen)))
     (num_levels o n sp) (mkTrace [init_cell o] None)).
Proof.
  intros HG Pr Inv CF. assert (En : num_levels o n sp = Z.to_nat (n - Z.of_nat (count_occ Z.eq_dec init sp))).
  { unfold num_levels. now rewrite get_speckle_num_spec. }
  split; [rewrite levels_length; exact En|]. intros k t E.
  destruct (level_sound_final E) as [F _].
  destruct (@levels_transversal init P sp cond PN CO h o FC eq_refl HG Pr Inv (num_levels o n sp) 0 (mkTrace [init_cell o] None) k t) as [A B].
  - now apply sound_init.
  - reflexivity.
  - cbn. fold init. split; [constructor; [now apply kfold_zero|constructor]|]. split.
    + intros x Hx. apply kfold_zero in Hx. subst x. exists init. split; [now left|]. apply (equivalent_refl HG). reflexivity.
    + constructor; [constructor|constructor].
  - intros m Hm. apply CF. rewrite <- En. exact Hm.
  - exact E.
  - split; [exact A|]. split; [exact F|exact B].
Qed.
End Final.

Definition P_unitary (o : occ) sp := site_not (numbers (init_cell o)) sp.
Definition P_wy (o : occ) wy sp i := site_letter (wyckoffs o) wy i /\ site_not (numbers (init_cell o)) sp i.
Definition P_ele (o : occ) ele sp i := site_holds (numbers (init_cell o)) ele i /\ site_not (numbers (init_cell o)) sp i.

Lemma CO_unitary o sp k x i a : k_fold (numbers (init_cell o)) (P_unitary o sp) k sp x -> nth_error x i = Some a ->
  (cond_unitary sp i a = true <-> P_unitary o sp i /\ a <> sp).
Proof.
  intros [S [_ [Lx Hx]]] Ha. unfold cond_unitary, P_unitary, site_not. rewrite negb_true_iff, Z.eqb_neq. split.
  - intros N. split; [|congruence]. assert (Hi : i < length x) by (apply nth_error_Some; congruence). rewrite Lx in Hi.
    destruct (nth_error (numbers (init_cell o)) i) as [b|] eqn:Hb; [|apply nth_error_None in Hb; lia].
    exists b. split; [reflexivity|]. destruct (Hx i b Hb) as [E1 E2].
    destruct (in_dec Nat.eq_dec i S) as [I|I]; [rewrite (E1 I) in Ha|rewrite (E2 I) in Ha]; congruence.
  - intros [_ N]. congruence.
Qed.

Lemma CO_wy o wy sp k x i a : k_fold (numbers (init_cell o)) (P_wy o wy sp) k sp x -> nth_error x i = Some a ->
  (cond_wy o wy sp i a = true <-> P_wy o wy sp i /\ a <> sp).
Proof.
  intros [S [_ [Lx Hx]]] Ha. unfold cond_wy, P_wy, site_not, site_letter.
  destruct (nth_error (wyckoffs o) i) as [w|]; [|split; [discriminate|intros [[K _] _]; discriminate]].
  rewrite andb_true_iff, String.eqb_eq, negb_true_iff, Z.eqb_neq. split.
  - intros [-> N]. split; [|congruence]. split; [reflexivity|].
    assert (Hi : i < length x) by (apply nth_error_Some; congruence). rewrite Lx in Hi.
    destruct (nth_error (numbers (init_cell o)) i) as [b|] eqn:Hb; [|apply nth_error_None in Hb; lia].
    exists b. split; [reflexivity|]. destruct (Hx i b Hb) as [E1 E2].
    destruct (in_dec Nat.eq_dec i S) as [I|I]; [rewrite (E1 I) in Ha|rewrite (E2 I) in Ha]; congruence.
  - intros [[E _] N]. split; congruence.
Qed.

Lemma CO_ele o ele sp k x i a : k_fold (numbers (init_cell o)) (P_ele o ele sp) k sp x -> nth_error x i = Some a ->
  (cond_ele ele sp i a = true <-> P_ele o ele sp i /\ a <> sp).
Proof.
  intros [S [_ [Lx Hx]]] Ha. unfold cond_ele, P_ele, site_not, site_holds.
  rewrite andb_true_iff, negb_true_iff, Z.eqb_eq, Z.eqb_neq.
  assert (Hi : i < length x) by (apply nth_error_Some; congruence). rewrite Lx in Hi.
  destruct (nth_error (numbers (init_cell o)) i) as [b|] eqn:Hb; [|apply nth_error_None in Hb; lia].
  destruct (Hx i b Hb) as [E1 E2]. destruct (in_dec Nat.eq_dec i S) as [I|I].
  - rewrite (E1 I) in Ha. injection Ha as <-. split; [intros [_ N]; congruence|intros [_ N]; congruence].
  - rewrite (E2 I) in Ha. injection Ha as <-. split.
    + intros [-> N]. split; [split; [reflexivity|eauto]|assumption].
    + intros [[E _] N]. injection E as ->. auto.
Qed.

Lemma PN_unitary o sp i : P_unitary o sp i -> site_not (numbers (init_cell o)) sp i.
Proof. auto. Qed.
Lemma PN_wy o wy sp i : P_wy o wy sp i -> site_not (numbers (init_cell o)) sp i.
Proof. intros [_ H]. exact H. Qed.
Lemma PN_ele o ele sp i : P_ele o ele sp i -> site_not (numbers (init_cell o)) sp i.
Proof. intros [_ H]. exact H. Qed.
