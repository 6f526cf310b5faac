(** C17, C19, C20: enumeration with duplicates and its filtered version. *)
From Coq Require Import String.
From Verif Require Import Base LBase BaseQ MGeneralCell SGeneralCell LGeneralCell MComb SSubst LComb SSym LSym MSogen LFilter SOcc SEnum.
Set Implicit Arguments.
Unset Strict Implicit.
Open Scope nat_scope.

Definition cellof (c0 : gcell) (x : list Z) : gcell :=
  mkG (lattice c0) (positions c0) x (lattice c0, positions c0, x) (length x).

Lemma from_constructor_facts c : from_constructor c ->
  canonical (positions c) /\ positions c <> [] /\ length (positions c) = length (numbers c) /\
  num_count c = length (numbers c) /\ c = cellof c (numbers c).
Proof.
  intros [lat [pos [nums [L H]]]]. destruct (GeneralCell_new_canonical H) as [C N].
  split; [assumption|]. split; [assumption|]. destruct (GeneralCell_new_inv _ _ _ H) as [N' L'].
  rewrite GeneralCell_new_ok in H by assumption. injection H as <-. cbn. unfold cellof; cbn.
  rewrite sortp_length, sortn_length, L. auto.
Qed.

Lemma new_cellof c x : from_constructor c -> length x = length (numbers c) ->
  GeneralCell_new (lattice c) (positions c) x = Ok (cellof c x).
Proof.
  intros F L. destruct (from_constructor_facts F) as [C [N [L' _]]].
  rewrite canonical_new by (auto; lia). reflexivity.
Qed.

Lemma cellof_frame c x : from_constructor c -> length x = length (numbers c) -> same_frame c (cellof c x).
Proof.
  intros F L. destruct (from_constructor_facts F) as [_ [_ [L' [NC _]]]].
  unfold same_frame, cellof; cbn. rewrite NC. repeat split; assumption.
Qed.

Lemma cellof_numbers c x : numbers (cellof c x) = x.
Proof. reflexivity. Qed.

Lemma init_frame c : from_constructor c -> same_frame c c.
Proof.
  intros F. destruct (from_constructor_facts F) as [_ [_ [_ [NC E]]]]. rewrite E at 2. now apply cellof_frame.
Qed.

Section Dup.
Context (o : occ).
Hypothesis FC : from_constructor (init_cell o).
Let init := numbers (init_cell o).

Lemma put_cell_ok v c : (forall i, In i c -> i < length init) ->
  put_cell o v c = Ok (cellof (init_cell o) (puts init c v)).
Proof.
  intros H. unfold put_cell. fold init. rewrite put_ok by assumption. cbn.
  apply new_cellof; [assumption|]. apply puts_length.
Qed.

Lemma gen_dup_generic (P : nat -> Prop) T n sp : NoDup T -> (forall i, In i T <-> P i) ->
  (forall i, P i -> i < length init) ->
  exists Ss, all_subsets_once P n Ss /\
    gen_of (put_cell o sp) (combinations T (Z.of_nat n)) =
      mkTrace (map (fun S => cellof (init_cell o) (puts init S sp)) Ss) None /\
    (forall S, In S Ss -> substituted init S sp (puts init S sp)) /\
    length Ss = binom (length T) n.
Proof.
  intros ND PT PL. exists (combos T n). split; [now apply combos_all_subsets|].
  assert (R : forall S, In S (combos T n) -> forall i, In i S -> i < length init).
  { intros S HS i Hi. apply combos_In in HS. destruct HS as [HS _]. apply PL, PT. now apply (subseq_incl HS). }
  split; [|split].
  - unfold combinations. destruct (Z.ltb_spec (Z.of_nat n) 0); [lia|]. rewrite Nat2Z.id. cbn [gen_of].
    rewrite (gen_map_ok (put_cell o sp) (fun S => cellof (init_cell o) (puts init S sp))); [reflexivity|].
    intros S HS. apply put_cell_ok. exact (R S HS).
  - intros S HS. apply puts_substituted. exact (R S HS).
  - apply combos_length.
Qed.

Lemma dup_statement_intro P n sp Ss : all_subsets_once P n Ss ->
  (forall S, In S Ss -> substituted init S sp (puts init S sp)) ->
  dup_statement o P n sp (mkTrace (map (fun S => cellof (init_cell o) (puts init S sp)) Ss) None).
Proof.
  intros A H. exists Ss. split; [assumption|]. split; [reflexivity|]. cbn. clear A.
  induction Ss as [|S Ss IH]; cbn; constructor.
  - split; [apply cellof_frame; [assumption|apply puts_length]|]. apply H. now left.
  - apply IH. intros S' HS'. apply H. now right.
Qed.

Lemma sp_ind_filter A (f : A -> bool) (l : list A) i :
  In i (map fst (filter (fun ie => f (snd ie)) (enumerate l))) <-> exists a, nth_error l i = Some a /\ f a = true.
Proof.
  rewrite in_map_iff. split.
  - intros [[j a] [E H]]. cbn in E. subst j. apply filter_In in H. destruct H as [H1 H2].
    apply In_enumerate in H1. eauto.
  - intros [a [H1 H2]]. exists (i, a). split; [reflexivity|]. apply filter_In. split; [now apply In_enumerate|assumption].
Qed.

Lemma sp_ind_NoDup A (f : A -> bool) (l : list A) : NoDup (map fst (filter (fun ie => f (snd ie)) (enumerate l))).
Proof.
  assert (G : forall l' : list (nat * A), NoDup (map fst l') -> NoDup (map fst (filter (fun ie => f (snd ie)) l'))).
  { induction l' as [|[i a] l' IH]; cbn; intros H; [constructor|]. inversion H; subst.
    destruct (f a); cbn; [|auto]. constructor; [|auto]. intros I. apply H2.
    apply in_map_iff in I. destruct I as [x [E Hx]]. apply filter_In in Hx. apply in_map_iff. exists x. tauto. }
  apply G. unfold enumerate, range. rewrite map_fst_combine by (now rewrite seq_length). apply seq_NoDup.
Qed.

Lemma C17_unitary n sp : dup_statement o (any_site (numbers (init_cell o))) n sp (gen_dup_unitary o (Z.of_nat n) sp).
Proof.
  unfold gen_dup_unitary. fold init.
  destruct (@gen_dup_generic (any_site init) (range (length init)) n sp) as [Ss [A [E [S _]]]].
  - apply seq_NoDup.
  - intros i. unfold range, any_site. rewrite in_seq. lia.
  - auto.
  - rewrite E. now apply dup_statement_intro.
Qed.

Lemma C17_ele ele n sp : dup_statement o (site_holds (numbers (init_cell o)) ele) n sp (gen_dup_of_ele o ele (Z.of_nat n) sp).
Proof.
  unfold gen_dup_of_ele. fold init.
  destruct (@gen_dup_generic (site_holds init ele)
    (map fst (filter (fun ie => Z.eqb (snd ie) ele) (enumerate init))) n sp) as [Ss [A [E [S _]]]].
  - apply (sp_ind_NoDup (fun e => Z.eqb e ele)).
  - intros i. rewrite (sp_ind_filter (fun e => Z.eqb e ele)). unfold site_holds. split.
    + intros [a [H1 H2]]. apply Z.eqb_eq in H2. congruence.
    + intros H. exists ele. split; [assumption|apply Z.eqb_refl].
  - intros i H. apply nth_error_Some. unfold site_holds in H. congruence.
  - rewrite E. now apply dup_statement_intro.
Qed.

Lemma C17_wy wy n sp : length (wyckoffs o) = length (numbers (init_cell o)) ->
  dup_statement o (site_letter (wyckoffs o) wy) n sp (gen_dup o wy (Z.of_nat n) sp).
Proof.
  intros LW. unfold gen_dup.
  destruct (@gen_dup_generic (site_letter (wyckoffs o) wy)
    (map fst (filter (fun ie => String.eqb (snd ie) wy) (enumerate (wyckoffs o)))) n sp) as [Ss [A [E [S _]]]].
  - apply (sp_ind_NoDup (fun e => String.eqb e wy)).
  - intros i. rewrite (sp_ind_filter (fun e => String.eqb e wy)). unfold site_letter. split.
    + intros [a [H1 H2]]. apply String.eqb_eq in H2. congruence.
    + intros H. exists wy. split; [assumption|apply String.eqb_refl].
  - intros i H. unfold init. rewrite <- LW. apply nth_error_Some. unfold site_letter in H. congruence.
  - rewrite E. now apply dup_statement_intro.
Qed.

Lemma C17_negative n sp wy ele : (n < 0)%Z ->
  gen_dup_unitary o n sp = mkTrace [] (Some ValueError) /\
  gen_dup o wy n sp = mkTrace [] (Some ValueError) /\
  gen_dup_of_ele o ele n sp = mkTrace [] (Some ValueError).
Proof.
  intros H. unfold gen_dup_unitary, gen_dup, gen_dup_of_ele, combinations.
  destruct (Z.ltb_spec n 0); [|lia]. repeat split; reflexivity.
Qed.

Lemma dup_statement_count P n sp t : dup_statement o P n sp t -> forall Ss', all_subsets_once P n Ss' -> length (items t) = length Ss'.
Proof.
  intros [Ss [[A1 [A2 A3]] [_ F]]] Ss' [B1 [B2 B3]]. rewrite <- (Forall2_len F).
  assert (G : forall X Y, (forall S, In S X -> exists S', In S' Y /\ same_set S S') ->
     ForallOrdPairs (fun a b => ~ same_set a b) X -> length X <= length Y).
  { induction X as [|S X IH]; intros Y HX HP; cbn; [lia|]. inversion HP; subst.
    destruct (HX S) as [S' [HS' E]]; [now left|]. apply in_split in HS'. destruct HS' as [Y1 [Y2 ->]].
    rewrite app_length. cbn. specialize (IH (Y1 ++ Y2)). rewrite app_length in IH.
    assert (length X <= length Y1 + length Y2); [|lia]. apply IH; [|assumption].
    intros R HR. destruct (HX R) as [R' [HR' ER]]; [now right|]. apply in_app_iff in HR'. destruct HR' as [HR'|[<-|HR']].
    - exists R'. rewrite in_app_iff. auto.
    - exfalso. rewrite Forall_forall in H1. apply (H1 R HR). intros i. rewrite (E i). symmetry. apply ER.
    - exists R'. rewrite in_app_iff. auto. }
  apply Nat.le_antisymm; apply G; try assumption.
  - intros S HS. apply B2. rewrite Forall_forall in A1. auto.
  - intros S HS. apply A2. rewrite Forall_forall in B1. auto.
Qed.
End Dup.

Lemma fold_all_subsets P T n : NoDup T -> (forall i, In i T <-> P i) -> all_subsets_once P n (combos T n).
Proof. apply combos_all_subsets. Qed.

(** *** closure of the substitution domain under the group *)
Definition invariant (G : list (list nat)) (P : nat -> Prop) : Prop :=
  forall p i j, In p G -> nth_error p i = Some j -> (P i <-> P j).

Lemma preimage_set n p S : Permutation p (seq 0 n) -> NoDup S -> (forall i, In i S -> i < n) ->
  exists S', NoDup S' /\ length S' = length S /\
    (forall i, In i S' <-> exists j, nth_error p i = Some j /\ In j S).
Proof.
  intros Pp ND L.
  set (f := fun i => match nth_error p i with Some j => existsb (Nat.eqb j) S | None => false end).
  exists (filter f (seq 0 n)).
  assert (I : forall i, In i (filter f (seq 0 n)) <-> exists j, nth_error p i = Some j /\ In j S).
  { intros i. rewrite filter_In, in_seq. unfold f. split.
    - intros [Hi Hf]. destruct (nth_error p i) as [j|] eqn:E; [|discriminate]. apply existsb_exists in Hf.
      destruct Hf as [k [Hk Ek]]. apply Nat.eqb_eq in Ek. subst. eauto.
    - intros [j [E Hj]]. split.
      + assert (i < length p) by (apply nth_error_Some; congruence). rewrite (perm_length Pp) in H. lia.
      + rewrite E. apply existsb_exists. exists j. split; [assumption|apply Nat.eqb_refl]. }
  split; [apply NoDup_filter, seq_NoDup|]. split; [|exact I].
  rewrite <- (map_length (fun i => nth i p 0) (filter f (seq 0 n))).
  apply Permutation_length. apply NoDup_Permutation; [|assumption|].
  - assert (ND' : NoDup (filter f (seq 0 n))) by apply NoDup_filter, seq_NoDup.
    assert (H : forall i, In i (filter f (seq 0 n)) -> exists j, nth_error p i = Some j) by (intros i Hi; apply I in Hi; destruct Hi as [j [E _]]; eauto).
    revert ND' H. generalize (filter f (seq 0 n)). induction l as [|i l IH]; cbn; intros ND' H; constructor.
    + inversion ND'; subst. intros K. apply in_map_iff in K. destruct K as [i' [E Hi']].
      destruct (H i) as [j Ej]; [now left|]. destruct (H i') as [j' Ej']; [now right|].
      rewrite (nth_error_nth p i 0 Ej), (nth_error_nth p i' 0 Ej') in E. subst j'.
      assert (i = i') by (apply (perm_inj Pp Ej Ej')). congruence.
    + inversion ND'; subst. apply IH; [assumption|]. intros i' Hi'. apply H. now right.
  - intros j. rewrite in_map_iff. split.
    + intros [i [<- Hi]]. apply I in Hi. destruct Hi as [j [E Hj]]. now rewrite (nth_error_nth p i 0 E).
    + intros Hj. destruct (perm_surj Pp (L j Hj)) as [i [Hi E]]. exists i. split; [now apply nth_error_nth|].
      apply I. eauto.
Qed.

Lemma kfold_closed n G init (P : nat -> Prop) k v x y : perm_group n G -> length init = n -> preserves G init -> invariant G P ->
  (forall i, P i -> i < n) ->
  k_fold init P k v x -> equivalent G x y -> k_fold init P k v y.
Proof.
  intros HG Li Pr Inv PL [S [[ND [LS HS]] [Lx Hx]]] [p [Hp R]]. pose proof HG as [HP _].
  destruct (@preimage_set n p S (HP p Hp) ND) as [S' [ND' [LS' HS']]]; [auto|].
  exists S'. split.
  - split; [assumption|]. split; [congruence|]. intros i Hi. apply HS' in Hi. destruct Hi as [j [E Hj]].
    apply (Inv p i j Hp E). auto.
  - split; [rewrite (reordered_length R), (perm_length (HP p Hp)); auto|].
    intros i a Ha. pose proof (Pr p Hp) as Rp. rewrite (reordered_nth i Rp) in Ha. rewrite (reordered_nth i R).
    destruct (nth_error p i) as [j|] eqn:E; [|discriminate]. destruct (Hx j a Ha) as [H1 H2]. split.
    + intros Hi. apply HS' in Hi. destruct Hi as [j' [E' Hj']]. rewrite E in E'. injection E' as <-. auto.
    + intros Hi. apply H2. intros Hj. apply Hi. apply HS'. eauto.
Qed.

Lemma kfold_length init P k v x : k_fold init P k v x -> length x = length init.
Proof. intros [S [_ [L _]]]. exact L. Qed.

(** C19 *)
Lemma dup_numbers o (P : nat -> Prop) n sp t : (forall i, P i -> i < length (numbers (init_cell o))) -> dup_statement o P n sp t ->
  (forall c, In c (items t) -> k_fold (numbers (init_cell o)) P n sp (numbers c)) /\
  (forall x, k_fold (numbers (init_cell o)) P n sp x -> exists c, In c (items t) /\ numbers c = x).
Proof.
  intros PL [Ss [[A1 [A2 A3]] [_ F]]]. split.
  - intros c Hc. clear A2 A3. induction F as [|S c' Ss l [Hf Hs] F IH]; [easy|]. inversion A1; subst.
    destruct Hc as [<-|Hc]; [exists S; auto|auto].
  - intros x [S [HS Hx]]. destruct (A2 S HS) as [S' [HS' E]].
    assert (G : exists c, In c (items t) /\ substituted (numbers (init_cell o)) S' sp (numbers c)).
    { clear - F HS'. induction F as [|R c Ss l [Hf Hs] F IH]; [easy|]. destruct HS' as [->|HS'].
      - exists c. split; [now left|assumption].
      - destruct (IH HS') as [d [Hd Hd']]. exists d. split; [now right|assumption]. }
    destruct G as [c [Hc Hs]]. exists c. split; [assumption|]. symmetry. apply (substituted_fun E Hx Hs).
Qed.

Lemma C19_generic h o (P : nat -> Prop) n sp t :
  perm_group (length (numbers (init_cell o))) (sym_perm o) ->
  preserves (sym_perm o) (numbers (init_cell o)) -> invariant (sym_perm o) P ->
  (forall i, P i -> i < length (numbers (init_cell o))) ->
  dup_statement o P n sp t ->
  collision_free h (k_fold (numbers (init_cell o)) P n sp) ->
  stop (gen_2nodup_gen h o t) = None /\
  Forall (same_frame (init_cell o)) (items (gen_2nodup_gen h o t)) /\
  transversal (equivalent (sym_perm o)) (k_fold (numbers (init_cell o)) P n sp)
    (map numbers (items (gen_2nodup_gen h o t))).
Proof.
  intros HG Pr Inv PL DS CF. destruct (dup_numbers PL DS) as [D1 D2].
  assert (HL : forall c, In c (items t) -> length (numbers c) = length (numbers (init_cell o))).
  { intros c Hc. eapply kfold_length. eauto. }
  destruct (C18_lemma h HG HL) as [S1 [S2 _]].
  destruct DS as [Ss [A [Hstop F]]].
  split; [congruence|]. split.
  - apply Forall_forall. intros c Hc. apply (subseq_incl S1) in Hc. clear - F Hc.
    induction F as [|S d Ss l [Hf _] F IH]; [easy|]. destruct Hc as [<-|Hc]; auto.
  - apply filter_transversal with (n := length (numbers (init_cell o))); auto.
    + intros x Hx. eapply kfold_length; eauto.
    + intros x y Hx E. eapply kfold_closed; eauto.
    + intros x Hx. destruct (D2 x Hx) as [c [Hc <-]]. exists c. split; [assumption|].
      apply (equivalent_refl HG). auto.
Qed.

Lemma inv_any n G init : perm_group n G -> length init = n -> invariant G (any_site init).
Proof.
  intros [HP _] L p i j Hp E. unfold any_site. split; intros _.
  - rewrite L. apply (perm_lt (HP p Hp) E).
  - rewrite L, <- (perm_length (HP p Hp)). apply nth_error_Some. congruence.
Qed.

Lemma preserves_nth A G (x : list A) p i j : preserves G x -> In p G -> nth_error p i = Some j -> nth_error x i = nth_error x j.
Proof. intros Pr Hp E. rewrite (reordered_nth i (Pr p Hp)), E. reflexivity. Qed.

Lemma inv_holds G init e : preserves G init -> invariant G (site_holds init e).
Proof. intros Pr p i j Hp E. unfold site_holds. rewrite (preserves_nth Pr Hp E). tauto. Qed.
Lemma inv_not G init v : preserves G init -> invariant G (site_not init v).
Proof. intros Pr p i j Hp E. unfold site_not. rewrite (preserves_nth Pr Hp E). tauto. Qed.
Lemma inv_letter L G (ls : list L) w : preserves G ls -> invariant G (site_letter ls w).
Proof. intros Pr p i j Hp E. unfold site_letter. rewrite (preserves_nth Pr Hp E). tauto. Qed.
Lemma inv_and G (P Q : nat -> Prop) : invariant G P -> invariant G Q -> invariant G (fun i => P i /\ Q i).
Proof. intros HP HQ p i j Hp E. rewrite (HP p i j Hp E), (HQ p i j Hp E). tauto. Qed.

(** *** C20 *)
Lemma put2_nth nums c1 c2 v1 v2 :
  (forall i, In i c1 -> i < length nums) -> (forall i, In i c2 -> i < length nums) -> (forall i, In i c1 -> ~ In i c2) ->
  exists x, put2 nums c1 c2 v1 v2 = Ok x /\ length x = length nums /\
    forall j, nth j x 0%Z = if in_dec Nat.eq_dec j c1 then v1 else if in_dec Nat.eq_dec j c2 then v2 else nth j nums 0%Z.
Proof.
  revert nums c2. induction c1 as [|i1 c1 IH]; intros nums c2 H1 H2 D.
  - exists (puts nums c2 v2). split; [cbn [put2]; destruct c2; now apply put_ok|]. split; [apply puts_length|].
    intros j. rewrite nth_puts by assumption. destruct (in_dec Nat.eq_dec j []) as [[]|_]. reflexivity.
  - assert (Hi1 : i1 < length nums) by (apply H1; now left).
    destruct c2 as [|i2 c2]; cbn [put2]; rewrite set_nth_ok by assumption; cbn [bind].
    + destruct (IH (upd nums i1 v1) []) as [x [E [L Hx]]].
      * intros i Hi. rewrite upd_length. apply H1. now right.
      * easy.
      * easy.
      * exists x. split; [assumption|]. split; [now rewrite L, upd_length|]. intros j. rewrite Hx, nth_upd by assumption.
        destruct (in_dec Nat.eq_dec j []) as [[]|_].
        destruct (in_dec Nat.eq_dec j c1) as [I|I], (in_dec Nat.eq_dec j (i1 :: c1)) as [J|J], (Nat.eqb_spec i1 j);
          try reflexivity; subst; exfalso; cbn in J; first [now (destruct J; auto) | apply J; auto].
    + assert (Hi2 : i2 < length nums) by (apply H2; now left).
      rewrite set_nth_ok by (now rewrite upd_length). cbn [bind].
      destruct (IH (upd (upd nums i1 v1) i2 v2) c2) as [x [E [L Hx]]].
      * intros i Hi. rewrite !upd_length. apply H1. now right.
      * intros i Hi. rewrite !upd_length. apply H2. now right.
      * intros i Hi K. apply (D i); now right.
      * exists x. split; [assumption|]. split; [now rewrite L, !upd_length|]. intros j.
        rewrite Hx, nth_upd by (now rewrite upd_length). rewrite nth_upd by assumption.
        assert (Dij : i1 <> i2) by (intros ->; apply (D i2); now left).
        destruct (in_dec Nat.eq_dec j c1) as [I|I], (in_dec Nat.eq_dec j (i1 :: c1)) as [J|J],
                 (in_dec Nat.eq_dec j c2) as [K|K], (in_dec Nat.eq_dec j (i2 :: c2)) as [M|M],
                 (Nat.eqb_spec i1 j), (Nat.eqb_spec i2 j);
          try reflexivity; subst; exfalso; cbn in J, M; try congruence;
          first [ now (destruct J; auto) | now (destruct M; auto) | apply J; now auto | apply M; now auto
                | apply (D j); cbn; now auto | idtac ].
Qed.

Lemma gen_flat_ok A B (f : A -> trace B) (g : A -> list B) l : (forall x, In x l -> f x = mkTrace (g x) None) ->
  gen_flat f l = mkTrace (flat_map g l) None.
Proof.
  induction l as [|x l IH]; intros H; cbn; [reflexivity|]. rewrite H by (now left). cbn.
  rewrite IH by (intros y Hy; apply H; now right). reflexivity.
Qed.

Definition two_put (init : list Z) v1 v2 c1 c2 : list Z :=
  map (fun j => if in_dec Nat.eq_dec j c1 then v1 else if in_dec Nat.eq_dec j c2 then v2 else nth j init 0%Z) (seq 0 (length init)).

Lemma two_put_length init v1 v2 c1 c2 : length (two_put init v1 v2 c1 c2) = length init.
Proof. unfold two_put. now rewrite map_length, seq_length. Qed.

Lemma two_put_nth init v1 v2 c1 c2 i a : nth_error init i = Some a ->
  nth_error (two_put init v1 v2 c1 c2) i = Some (if in_dec Nat.eq_dec i c1 then v1 else if in_dec Nat.eq_dec i c2 then v2 else a).
Proof.
  intros Ha. assert (Hi : i < length init) by (apply nth_error_Some; congruence).
  unfold two_put. rewrite nth_error_map, nth_error_seq. destruct (Nat.ltb_spec i (length init)); [|lia].
  cbn. rewrite (nth_error_nth init i 0%Z Ha). reflexivity.
Qed.

Lemma trinary_items o n1 n2 v1 v2 : from_constructor (init_cell o) ->
  let init := numbers (init_cell o) in
  gen_dup_trinary_alloy o v1 (Z.of_nat n1) v2 (Z.of_nat n2) =
  mkTrace (flat_map (fun c1 => map (fun c2 => cellof (init_cell o) (two_put init v1 v2 c1 c2))
      (combos (filter (fun x => negb (existsb (Nat.eqb x) c1)) (seq 0 (length init))) n2))
    (combos (seq 0 (length init)) n1)) None.
Proof.
  intros FC init. unfold gen_dup_trinary_alloy, combinations.
  destruct (Z.ltb_spec (Z.of_nat n1) 0); [lia|]. rewrite Nat2Z.id.
  destruct (Z.ltb_spec (Z.of_nat n2) 0); [lia|]. rewrite Nat2Z.id.
  apply gen_flat_ok. intros c1 Hc1. apply combos_In in Hc1. destruct Hc1 as [Hc1 _].
  cbn. apply gen_map_ok. intros c2 Hc2. apply combos_In in Hc2. destruct Hc2 as [Hc2 _].
  destruct (@put2_nth init c1 c2 v1 v2) as [x [E [L Hx]]].
  - intros i Hi. apply (subseq_incl Hc1), in_seq in Hi. lia.
  - intros i Hi. apply (subseq_incl Hc2), filter_In in Hi. destruct Hi as [Hi _]. apply in_seq in Hi. lia.
  - intros i Hi Hi2. apply (subseq_incl Hc2), filter_In in Hi2. destruct Hi2 as [_ Hi2].
    apply negb_true_iff in Hi2. assert (T : existsb (Nat.eqb i) c1 = true) by (apply existsb_exists; exists i; split; [assumption|apply Nat.eqb_refl]).
    congruence.
  - unfold init in *. rewrite E. cbn.
    assert (Ex : x = two_put (numbers (init_cell o)) v1 v2 c1 c2).
    { apply (list_ext_nth _ _ 0%Z); [now rewrite two_put_length|]. intros j Hj. rewrite Hx.
      symmetry. apply nth_error_nth. apply two_put_nth. apply nth_error_nth'. lia. }
    rewrite Ex. apply new_cellof; [assumption|apply two_put_length].
Qed.

Lemma two_put_two_fold init n1 n2 v1 v2 c1 c2 :
  In c1 (combos (seq 0 (length init)) n1) ->
  In c2 (combos (filter (fun x => negb (existsb (Nat.eqb x) c1)) (seq 0 (length init))) n2) ->
  two_fold init n1 v1 n2 v2 (two_put init v1 v2 c1 c2).
Proof.
  intros H1 H2. apply combos_In in H1, H2. destruct H1 as [H1 L1], H2 as [H2 L2].
  assert (D : forall i, In i c1 -> ~ In i c2).
  { intros i Hi Hi2. apply (subseq_incl H2), filter_In in Hi2. destruct Hi2 as [_ Hi2].
    apply negb_true_iff in Hi2. assert (T : existsb (Nat.eqb i) c1 = true) by (apply existsb_exists; exists i; split; [assumption|apply Nat.eqb_refl]).
    congruence. }
  exists c1, c2. split; [|split; [|split; [|split]]].
  - split; [apply (subseq_NoDup H1), seq_NoDup|]. split; [assumption|]. intros i Hi. apply (subseq_incl H1), in_seq in Hi. unfold any_site. lia.
  - split; [apply (subseq_NoDup H2), NoDup_filter, seq_NoDup|]. split; [assumption|].
    intros i Hi. apply (subseq_incl H2), filter_In in Hi. destruct Hi as [Hi _]. apply in_seq in Hi. unfold any_site. lia.
  - exact D.
  - apply two_put_length.
  - intros i a Ha. rewrite (two_put_nth _ _ _ _ Ha).
    destruct (in_dec Nat.eq_dec i c1) as [I1|I1], (in_dec Nat.eq_dec i c2) as [I2|I2]; try (exfalso; eapply D; eassumption);
      repeat split; intros; try easy.
Qed.

Lemma two_fold_in init n1 n2 v1 v2 x : two_fold init n1 v1 n2 v2 x ->
  exists c1 c2, In c1 (combos (seq 0 (length init)) n1) /\
    In c2 (combos (filter (fun x => negb (existsb (Nat.eqb x) c1)) (seq 0 (length init))) n2) /\
    x = two_put init v1 v2 c1 c2.
Proof.
  intros [S1 [S2 [H1 [H2 [D [L H]]]]]].
  destruct (@subset_subseq (any_site init) (seq 0 (length init)) S1 n1) as [c1 [A1 [A2 A3]]].
  - apply seq_NoDup.
  - intros i Hi. apply in_seq. unfold any_site in Hi. lia.
  - assumption.
  - destruct (@subset_subseq (fun i => In i (filter (fun x => negb (existsb (Nat.eqb x) c1)) (seq 0 (length init))))
      (filter (fun x => negb (existsb (Nat.eqb x) c1)) (seq 0 (length init))) S2 n2) as [c2 [B1 [B2 B3]]].
    + apply NoDup_filter, seq_NoDup.
    + auto.
    + destruct H2 as [N2 [L2 P2]]. split; [assumption|]. split; [assumption|]. intros i Hi. apply filter_In. split.
      * apply in_seq. specialize (P2 i Hi). unfold any_site in P2. lia.
      * apply negb_true_iff. destruct (existsb (Nat.eqb i) c1) eqn:E; [|reflexivity]. exfalso.
        apply existsb_exists in E. destruct E as [k [Hk Ek]]. apply Nat.eqb_eq in Ek. subst k.
        apply A3 in Hk. exact (D i Hk Hi).
    + exists c1, c2. split; [now apply combos_In|]. split; [now apply combos_In|].
      apply list_ext. intros i. destruct (nth_error init i) as [a|] eqn:Ha.
      * rewrite (two_put_nth _ _ _ _ Ha). destruct (H i a Ha) as [K1 [K2 K3]].
        destruct (in_dec Nat.eq_dec i c1) as [I1|I1]; [apply K1, A3, I1|].
        destruct (in_dec Nat.eq_dec i c2) as [I2|I2]; [apply K2, B3, I2|].
        apply K3; [intros K; apply I1, A3, K|intros K; apply I2, B3, K].
      * transitivity (@None Z); [|symmetry]; apply nth_error_None; apply nth_error_None in Ha; rewrite ?two_put_length; lia.
Qed.

Lemma two_fold_closed n G init n1 n2 v1 v2 x y : perm_group n G -> length init = n -> preserves G init ->
  two_fold init n1 v1 n2 v2 x -> equivalent G x y -> two_fold init n1 v1 n2 v2 y.
Proof.
  intros HG Li Pr [S1 [S2 [[N1 [L1 P1]] [[N2 [L2 P2]] [D [Lx Hx]]]]]] [p [Hp R]]. pose proof HG as [HP _].
  unfold any_site in P1, P2. rewrite Li in P1, P2.
  destruct (preimage_set (HP p Hp) N1 P1) as [S1' [N1' [L1' H1']]].
  destruct (preimage_set (HP p Hp) N2 P2) as [S2' [N2' [L2' H2']]].
  exists S1', S2'.
  assert (B : forall i j, nth_error p i = Some j -> i < length init).
  { intros i j E. rewrite Li, <- (perm_length (HP p Hp)). apply nth_error_Some. congruence. }
  split; [|split; [|split; [|split]]].
  - split; [assumption|]. split; [congruence|]. intros i Hi. apply H1' in Hi. destruct Hi as [j [E _]]. apply (B i j E).
  - split; [assumption|]. split; [congruence|]. intros i Hi. apply H2' in Hi. destruct Hi as [j [E _]]. apply (B i j E).
  - intros i Hi1 Hi2. apply H1' in Hi1. apply H2' in Hi2. destruct Hi1 as [j [E Hj]], Hi2 as [j' [E' Hj']].
    rewrite E in E'. injection E' as <-. exact (D j Hj Hj').
  - rewrite (reordered_length R), (perm_length (HP p Hp)). auto.
  - intros i a Ha. pose proof (Pr p Hp) as Rp. rewrite (reordered_nth i Rp) in Ha. rewrite (reordered_nth i R).
    destruct (nth_error p i) as [j|] eqn:E; [|discriminate]. destruct (Hx j a Ha) as [K1 [K2 K3]].
    split; [|split].
    + intros Hi. apply H1' in Hi. destruct Hi as [j' [E' Hj']]. rewrite E in E'. injection E' as <-. auto.
    + intros Hi. apply H2' in Hi. destruct Hi as [j' [E' Hj']]. rewrite E in E'. injection E' as <-. auto.
    + intros Hi1 Hi2. apply K3; [intros Hj; apply Hi1, H1'|intros Hj; apply Hi2, H2']; eauto.
Qed.

Lemma C20_lemma h o n1 n2 v1 v2 : from_constructor (init_cell o) ->
  perm_group (length (numbers (init_cell o))) (sym_perm o) ->
  preserves (sym_perm o) (numbers (init_cell o)) ->
  collision_free h (two_fold (numbers (init_cell o)) n1 v1 n2 v2) ->
  let t := gen_nodup_trinary_alloy h o v1 (Z.of_nat n1) v2 (Z.of_nat n2) in
  stop t = None /\ Forall (same_frame (init_cell o)) (items t) /\
  transversal (equivalent (sym_perm o)) (two_fold (numbers (init_cell o)) n1 v1 n2 v2) (map numbers (items t)).
Proof.
  intros FC HG Pr CF t. unfold t, gen_nodup_trinary_alloy. pose proof (trinary_items n1 n2 v1 v2 FC) as E.
  set (d := gen_dup_trinary_alloy o v1 (Z.of_nat n1) v2 (Z.of_nat n2)) in *. cbv zeta in E.
  assert (I : forall c, In c (items d) <-> exists c1 c2,
     In c1 (combos (seq 0 (length (numbers (init_cell o)))) n1) /\
     In c2 (combos (filter (fun x => negb (existsb (Nat.eqb x) c1)) (seq 0 (length (numbers (init_cell o))))) n2) /\
     c = cellof (init_cell o) (two_put (numbers (init_cell o)) v1 v2 c1 c2)).
  { intros c. rewrite E. cbn. rewrite in_flat_map. split.
    - intros [c1 [H1 H2]]. apply in_map_iff in H2. destruct H2 as [c2 [<- H2]]. eauto 6.
    - intros [c1 [c2 [H1 [H2 ->]]]]. exists c1. split; [assumption|]. apply in_map_iff. eauto. }
  assert (D1 : forall c, In c (items d) -> two_fold (numbers (init_cell o)) n1 v1 n2 v2 (numbers c)).
  { intros c Hc. apply I in Hc. destruct Hc as [c1 [c2 [H1 [H2 ->]]]]. cbn. now apply two_put_two_fold. }
  assert (TL : forall x, two_fold (numbers (init_cell o)) n1 v1 n2 v2 x -> length x = length (numbers (init_cell o))).
  { intros x [S1 [S2 [_ [_ [_ [L _]]]]]]. exact L. }
  assert (HL : forall c, In c (items d) -> length (numbers c) = length (numbers (init_cell o))) by auto.
  destruct (C18_lemma h HG HL) as [S1 [S2 _]].
  split; [rewrite S2, E; reflexivity|]. split.
  - apply Forall_forall. intros c Hc. apply (subseq_incl S1) in Hc. apply I in Hc. destruct Hc as [c1 [c2 [_ [_ ->]]]].
    apply cellof_frame; [assumption|apply two_put_length].
  - apply filter_transversal with (n := length (numbers (init_cell o))); auto.
    + intros x y Hx Eq. eapply two_fold_closed; eauto.
    + intros x Hx. destruct (two_fold_in Hx) as [c1 [c2 [H1 [H2 Ex]]]].
      exists (cellof (init_cell o) (two_put (numbers (init_cell o)) v1 v2 c1 c2)). split; [apply I; eauto 6|].
      cbn. rewrite <- Ex. apply (equivalent_refl HG). auto.
Qed.

Lemma C14_preserves_new lat pos nums c ops perms : length pos = length nums ->
  GeneralCell_new lat pos nums = Ok c -> distinct_sites (positions c) ->
  (forall o, In o ops -> maps_sites o (positions c)) ->
  (forall o i j p q, In o ops -> nth_error (positions c) j = Some p -> nth_error (positions c) i = Some q ->
     carries o p q -> nth_error (numbers c) j = nth_error (numbers c) i) ->
  get_symmetry_permutation ops c = Ok perms ->
  preserves perms (numbers c).
Proof.
  intros L H. destruct (@from_constructor_facts c) as [C [_ [E _]]]; [exists lat, pos, nums; auto|].
  intros D M S G. exact (C14_preserves C D (eq_sym E) M S G).
Qed.
