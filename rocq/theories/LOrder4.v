(** Level-by-level enumeration in order, and the ternary generator. *)
From Coq Require Import String Sorted.
From Verif Require Import Base LBase BaseQ MGeneralCell SGeneralCell LGeneralCell MComb SSubst LComb SSym LSym MSogen LFilter SOcc SEnum LDup LLevels SOrder LSort LOrder LOrder2 LOrder3.
Set Implicit Arguments.
Unset Strict Implicit.
Open Scope nat_scope.

Section AddOne.
Context (h : list Z -> Z) (c0 : gcell) (v : Z) (cond : nat -> Z -> bool) (D : list Z -> Prop).
Hypothesis FC : from_constructor c0.
Hypothesis CF : collision_free h D.
Let n := length (numbers c0).
Definition kids x (entries : list (nat * Z)) := map (fun e => upd x (fst e) v) (filter (fun e => cond (fst e) (snd e)) entries).

Lemma inner_firsts x entries : length x = n -> forall db seen, (forall i a, In (i, a) entries -> i < n) ->
  (forall y, In y (kids x entries) -> D y) -> (forall y, In y seen -> D y) -> (forall y, D y -> (In (h y) db <-> In y seen)) ->
  exists l db' seen', add_one_inner h (cellof c0 x) v cond db entries = (map (cellof c0) l, db', None) /\
    (forall y, In y seen' -> D y) /\ (forall y, D y -> (In (h y) db' <-> In y seen')) /\
    forall rest out, firsts eq seen' rest out -> firsts eq seen (kids x entries ++ rest) (l ++ out).
Proof.
  intros L. induction entries as [|[i a] es IH]; intros db seen HE HK HS HI; cbn [add_one_inner].
  - exists [], db, seen. repeat split; auto; apply HI; assumption.
  - assert (HE' : forall i a, In (i, a) es -> i < n) by (intros j b Hj; apply (HE j b); now right).
    unfold kids in *. cbn [filter fst snd] in *. destruct (cond i a) eqn:Ec; [|exact (IH db seen HE' HK HS HI)]. cbn [map fst] in HK.
    cbn [numbers cellof]. rewrite set_nth_ok by (rewrite L; apply (HE i a); now left).
    assert (Dx : D (upd x i v)) by (apply HK; now left).
    assert (HK' : forall y, In y (map (fun e => upd x (fst e) v) (filter (fun e => cond (fst e) (snd e)) es)) -> D y) by (intros y Hy; apply HK; now right).
    assert (HS' : forall y, In y (upd x i v :: seen) -> D y) by (intros y [<-|Hy]; auto).
    destruct (memZ (h (upd x i v)) db) eqn:Em.
    + apply memZ_In in Em. apply (HI _ Dx) in Em.
      destruct (IH db (upd x i v :: seen) HE' HK' HS') as [l [db' [seen' [E [H1 [H2 H3]]]]]].
      { intros y Dy. rewrite (HI y Dy). cbn. split; [tauto|]. intros [<-|K]; assumption. }
      exists l, db', seen'. split; [exact E|]. split; [assumption|]. split; [assumption|]. intros rest out K. cbn [map fst app].
      apply firsts_old with (upd x i v); [assumption|reflexivity|auto].
    + apply memZ_false in Em. cbn [lattice positions cellof]. rewrite new_cellof by (try rewrite upd_length; auto).
      destruct (IH (h (upd x i v) :: db) (upd x i v :: seen) HE' HK' HS') as [l [db' [seen' [E [H1 [H2 H3]]]]]].
      { intros y Dy. cbn. rewrite (HI y Dy). split; (intros [K|K]; [left|now right]); [now apply CF|congruence]. }
      rewrite E. exists (upd x i v :: l), db', seen'. split; [reflexivity|]. split; [assumption|]. split; [assumption|]. intros rest out K. cbn [map fst app].
      apply firsts_new; [|auto]. intros y Hy ->. apply Em. now apply HI.
Qed.

Lemma outer_firsts xs fin : forall db seen, (forall x, In x xs -> length x = n) ->
  (forall y, In y (flat_map (fun x => kids x (enumerate x)) xs) -> D y) -> (forall y, In y seen -> D y) -> (forall y, D y -> (In (h y) db <-> In y seen)) ->
  exists l, add_one_outer h v cond db (map (cellof c0) xs) fin = mkTrace (map (cellof c0) l) fin /\
    firsts eq seen (flat_map (fun x => kids x (enumerate x)) xs) l.
Proof.
  induction xs as [|x xs IH]; intros db seen HL HK HS HI; cbn [add_one_outer map flat_map].
  - exists []. split; [reflexivity|constructor].
  - assert (Lx : length x = n) by (apply HL; now left). cbn [flat_map] in HK.
    destruct (@inner_firsts x (enumerate x) Lx db seen) as [l [db' [seen' [E [H1 [H2 H3]]]]]]; [| |assumption|assumption|].
    { intros i a K. apply In_enumerate in K. rewrite <- Lx. apply nth_error_Some. congruence. }
    { intros y Hy. apply HK. apply in_app_iff. now left. }
    change (numbers (cellof c0 x)) with x. rewrite E.
    destruct (IH db' seen') as [l' [E' F']]; [intros y Hy; apply HL; now right|intros y Hy; apply HK; apply in_app_iff; now right|assumption|assumption|].
    rewrite E'. cbn [items stop]. exists (l ++ l'). rewrite map_app. split; [reflexivity|]. now apply H3.
Qed.
End AddOne.

Section Levels.
Context (o : occ) (P : nat -> Prop) (v : Z) (cond : nat -> Z -> bool) (h : list Z -> Z) (T : list nat).
Let init := numbers (init_cell o).
Hypothesis FC : from_constructor (init_cell o).
Hypothesis PN : forall i, P i -> site_not init v i.
Hypothesis CO : forall k x i a, k_fold init P k v x -> nth_error x i = Some a -> (cond i a = true <-> P i /\ a <> v).
Hypothesis HG : perm_group (length init) (sym_perm o).
Hypothesis Pr : preserves (sym_perm o) init.
Hypothesis Inv : invariant (sym_perm o) P.
Hypothesis ST : StronglySorted lt T.
Hypothesis PT : forall i, In i T <-> P i.
Let f S := puts init S v.

Lemma kids_children k A : site_choice P k A ->
  kids v cond (f A) (enumerate (f A)) = map (fun a => f (fst a ++ [snd a])) (children T A).
Proof.
  intros C. pose proof (choice_kfold (o := o) (P := P) (P_lt PN) v C) as KF. fold init in KF. fold (f A) in KF.
  assert (E : map fst (filter (fun e => cond (fst e) (snd e)) (enumerate (f A))) = filter (fun i => negb (existsb (Nat.eqb i) A)) T).
  { apply (ordered_unique (lt := lt)); [intros a; lia|intros a b c; lia| | |].
    - assert (Gs : forall l' : list (nat * Z), StronglySorted lt (map fst l') -> StronglySorted lt (map fst (filter (fun e => cond (fst e) (snd e)) l'))).
      { induction l' as [|[i a] l' IH]; cbn; intros H; [constructor|]. inversion H as [|? ? H1 H2]; subst.
        destruct (cond i a); cbn; [|auto]. constructor; [auto|]. rewrite Forall_forall in *. intros j Hj. apply H2.
        apply in_map_iff in Hj. destruct Hj as [x [E Hx]]. apply filter_In in Hx. apply in_map_iff. exists x. tauto. }
      apply Gs. unfold enumerate, range. rewrite map_fst_combine by (now rewrite seq_length). apply seq_sorted.
    - now apply StronglySorted_filter.
    - intros i. transitivity (P i /\ ~ In i A).
      + destruct (@puts_substituted init A v (choice_in PN C)) as [_ HA]. fold (f A) in HA. rewrite in_map_iff. split.
        * intros [[j a] [E H]]. cbn in E. subst j. apply filter_In in H. cbn in H. destruct H as [H1 H2]. apply In_enumerate in H1.
          apply (CO KF H1) in H2. destruct H2 as [Pi Na]. split; [assumption|]. intros K. destruct (PN Pi) as [b [Hb _]].
          destruct (HA i b Hb) as [E1 _]. rewrite (E1 K) in H1. congruence.
        * intros [Pi K]. destruct (PN Pi) as [b [Hb Nb]]. destruct (HA i b Hb) as [_ E2]. specialize (E2 K).
          exists (i, b). split; [reflexivity|]. apply filter_In. split; [now apply In_enumerate|]. cbn. apply (CO KF E2). auto.
      + pose proof (@children_In init P v (sym_perm o) T PT A (A, i)) as K. unfold children in K. rewrite in_map_iff in K. cbn in K. split.
        * intros [H1 H2]. destruct (proj2 K) as [j [Ej Hj]]; [auto|]. injection Ej as ->. exact Hj.
        * intros H. apply K. exists i. auto. }
  unfold kids, children. rewrite map_map, <- E, map_map. apply map_ext. intros e. cbn. unfold f, puts. now rewrite fold_left_app.
Qed.

Definition stage k (t : trace gcell) := exists As, t = mkTrace (map (shown o v) As) None /\ StronglySorted before As /\
  forall A, In A As <-> top init P v (sym_perm o) k A.

Lemma stage_next k t : collision_free h (k_fold init P (S k) v) -> stage k t ->
  stage (S k) (gen_2nodup_gen h o (add_one_outer h v cond [] (items t) (stop t))).
Proof.
  intros CF [As [-> [SA HA]]]. cbn [items stop].
  replace (map (shown o v) As) with (map (cellof (init_cell o)) (map f As)) by (rewrite map_map; reflexivity).
  assert (EK : flat_map (fun x => kids v cond x (enumerate x)) (map f As) = map (fun a => f (fst a ++ [snd a])) (flat_map (children T) As)).
  { assert (C : forall A, In A As -> site_choice P k A) by (intros A HA'; apply HA in HA'; apply HA').
    clear SA HA. induction As as [|A As IH]; cbn; [reflexivity|]. rewrite map_app, IH by (intros B HB; apply C; now right).
    f_equal. apply kids_children with k. apply C. now left. }
  assert (DK : forall a, In a (flat_map (children T) As) -> k_fold init P (S k) v (f (fst a ++ [snd a]))).
  { intros a Ha. apply in_flat_map in Ha. destruct Ha as [A [HA' Ha]]. apply (children_In init v (sym_perm o) PT) in Ha. destruct Ha as [-> [Pa Na]].
    apply HA in HA'. destruct HA' as [C _]. destruct (f_ins (sym_perm o) PN C Pa Na) as [E C']. cbv beta in E. unfold f. rewrite E.
    apply (choice_kfold (o := o) (P := P) (P_lt PN) v C'). }
  destruct (@outer_firsts h (init_cell o) v cond (k_fold init P (S k) v) FC CF (map f As) None [] []) as [l [E F1]].
  { intros x Hx. apply in_map_iff in Hx. destruct Hx as [A [<- _]]. apply puts_length. }
  { intros y Hy. rewrite EK in Hy. apply in_map_iff in Hy. destruct Hy as [a [<- Ha]]. auto. }
  { easy. }
  { intros y _. split; easy. }
  rewrite E, EK in *. clear E EK.
  assert (HL : forall x, In x l -> k_fold init P (S k) v x).
  { intros x Hx. apply (subseq_incl (firsts_subseq F1)) in Hx. apply in_map_iff in Hx. destruct Hx as [a [<- Ha]]. auto. }
  destruct (@filter_firsts h o (length init) (k_fold init P (S k) v) (mkTrace (map (cellof (init_cell o)) l) None) HG) as [out [E F2]].
  { intros x. apply kfold_length. }
  { intros x y Hx Eq. refine (kfold_closed HG eq_refl Pr Inv _ Hx Eq). exact (P_lt PN). }
  { assumption. }
  { intros c Hc. cbn in Hc. apply in_map_iff in Hc. destruct Hc as [x [<- Hx]]. cbn. auto. }
  cbn [items stop] in *. rewrite E. change (@nil gcell) with (map (cellof (init_cell o)) []) in F2. apply firsts_map in F2.
  destruct F2 as [l' [-> F2]]. cbn in F2.
  assert (F3 : firsts (fun a b => equivalent (sym_perm o) a b) [] (map (fun a => f (fst a ++ [snd a])) (flat_map (children T) As)) l').
  { refine (firsts_twice _ F1 F2 _); [|tauto]. intros x Hx. cbn in Hx. apply in_map_iff in Hx. destruct Hx as [a [<- _]].
    apply (equivalent_refl HG). apply puts_length. }
  change (@nil (list Z)) with (map (fun a => f (fst a ++ [snd a])) (@nil (list nat * nat))) in F3. apply firsts_map in F3.
  destruct F3 as [kept [-> F3]].
  pose proof (tags_sorted init v (sym_perm o) ST PT SA) as STg.
  destruct (@next_level init P v (sym_perm o) PN HG Inv T ST PT k As kept HA SA) as [N1 N2].
  { exact (subseq_sorted (firsts_subseq F3) STg). }
  { intros a. rewrite (firsts_In beforeP_irr beforeP_trans F3 STg); [|easy]. cbn. split; [tauto|]. intros [H1 H2]. split; [assumption|]. split; [easy|assumption]. }
  exists (map (fun a => fst a ++ [snd a]) kept). split; [|split; assumption]. rewrite !map_map. reflexivity.
Qed.

Lemma stage_zero : stage 0 (mkTrace [init_cell o] None).
Proof.
  exists [[]]. split; [|split; [repeat constructor|]].
  - cbn. f_equal. f_equal. unfold shown, puts. cbn. destruct (from_constructor_facts FC) as [_ [_ [_ [_ E]]]]. exact E.
  - intros A. cbn. split.
    + intros [<-|[]]. split; [split; [constructor|split; [reflexivity|constructor]]|]. intros U _ B. inversion B.
    + intros [[_ [L _]] _]. destruct A; [now left|discriminate].
Qed.

Lemma levels_stage count : (forall k, k <= count -> collision_free h (k_fold init P k v)) ->
  forall j lt, nth_error (levels (fun gen => gen_2nodup_gen h o (add_one_outer h v cond [] (items gen) (stop gen))) count (mkTrace [init_cell o] None)) j = Some lt ->
  stage (S j) lt.
Proof.
  intros CF. assert (Gn : forall cnt k t, (forall m, m <= k + cnt -> collision_free h (k_fold init P m v)) -> stage k t -> forall j lt,
    nth_error (levels (fun gen => gen_2nodup_gen h o (add_one_outer h v cond [] (items gen) (stop gen))) cnt t) j = Some lt -> stage (k + S j) lt).
  { induction cnt as [|cnt IH]; intros k t CF' St j lt; cbn [levels]; [destruct j; discriminate|].
    apply stage_next in St; [|apply CF'; lia]. destruct j as [|j]; cbn.
    - intros E. injection E as <-. now rewrite Nat.add_1_r.
    - intros E. replace (k + S (S j)) with (S k + S j) by lia. apply (IH (S k) _) with (2 := St) (3 := E). intros m Hm. apply CF'. lia. }
  intros j lt E. exact (Gn count 0 _ CF stage_zero j lt E).
Qed.

Lemma levels_in_order count : (forall k, k <= count -> collision_free h (k_fold init P k v)) ->
  forall j lt, nth_error (levels (fun gen => gen_2nodup_gen h o (add_one_outer h v cond [] (items gen) (stop gen))) count (mkTrace [init_cell o] None)) j = Some lt ->
  in_order o v (leader (sym_perm o) init P (S j) v) lt.
Proof.
  intros CF j lt E. destruct (levels_stage CF E) as [As [-> [SA HA]]]. apply (in_order_intro FC); [assumption| |].
  - intros S'. rewrite (leader_puts _ _ _ _ (P_lt PN)). apply HA.
  - intros S' [C _]. exact (choice_in PN C).
Qed.
End Levels.
