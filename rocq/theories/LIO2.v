(** POSCAR text: rows, species, blocks. *)
From Coq Require Import String Ascii Sorted DecimalString.
From Verif Require Import Base LBase BaseQ LQ SElement MElement LElement MSort LSort MGeneralCell SGeneralCell LGeneralCell
  MText LText MIO SIO LIO.
Set Implicit Arguments.
Unset Strict Implicit.
Open Scope Z_scope.
Open Scope string_scope.
Notation length := List.length.

(** *** rows *)
Lemma format_row_eq v : format_row v = format_10_6f (vx v) ++ String " " (format_10_6f (vy v) ++ String " " (format_10_6f (vz v))).
Proof. reflexivity. Qed.
Lemma format_row_shows v : shows_row v (format_row v).
Proof. exists (format_10_6f (vx v)), (format_10_6f (vy v)), (format_10_6f (vz v)). repeat split; apply format_shows. Qed.
Definition row_words (v : vec Qc) : list string := [fword (vx v); fword (vy v); fword (vz v)].
Lemma split_row v : split (format_row v) = row_words v.
Proof.
  rewrite format_row_eq. destruct (format_eq (vx v)) as [a ->], (format_eq (vy v)) as [b ->], (format_eq (vz v)) as [c ->].
  rewrite !app_assoc_s. rewrite split_cons by auto using spaces_blank, fword_word.
  rewrite split_cons by auto using spaces_blank, fword_word. rewrite split_last by auto using spaces_blank, fword_word. reflexivity.
Qed.
Lemma split_row_sym v s : is_word s -> split (format_row v ++ String " " s) = (row_words v ++ [s])%list.
Proof.
  intros S. rewrite format_row_eq. destruct (format_eq (vx v)) as [a ->], (format_eq (vy v)) as [b ->], (format_eq (vz v)) as [c ->].
  repeat first [rewrite app_assoc_s | progress cbn [String.append]].
  rewrite split_cons by auto using spaces_blank, fword_word. rewrite split_cons by auto using spaces_blank, fword_word.
  rewrite split_cons by auto using spaces_blank, fword_word. rewrite (@split_last "" s eq_refl S : split s = _). reflexivity.
Qed.
Lemma parse_row v : mapM parse_float (row_words v) = Ok [fval (vx v); fval (vy v); fval (vz v)].
Proof. unfold row_words. cbn. rewrite !fword_parse. reflexivity. Qed.
Lemma space_no_nl n : allc no_nl (spaces n) = true.
Proof. induction n; cbn; auto. Qed.
Lemma format_no_nl x : allc no_nl (format_10_6f x) = true.
Proof.
  destruct (format_eq x) as [n ->]. rewrite allc_app, space_no_nl.
  exact (allc_impl noblank_no_nl (proj1 (fword_word x))).
Qed.
Lemma row_no_nl v : allc no_nl (format_row v) = true.
Proof. rewrite format_row_eq, !allc_app. cbn [allc]. rewrite !allc_app. cbn [allc]. rewrite !format_no_nl. reflexivity. Qed.
Lemma word_not_blank s : is_word s -> blank s = false.
Proof.
  intros [H N]. destruct s as [|c s]; [congruence|]. cbn in *. apply andb_true_iff in H. destruct H as [H _].
  unfold noblank in H. apply negb_true_iff in H. now rewrite H.
Qed.
Lemma blank_app a b : blank (a ++ b) = blank a && blank b.
Proof. rewrite !blank_allc. apply allc_app. Qed.
Lemma row_not_blank v r : blank (format_row v ++ r) = false.
Proof.
  rewrite format_row_eq. destruct (format_eq (vx v)) as [a ->]. rewrite !app_assoc_s, blank_app, blank_app.
  rewrite (word_not_blank (fword_word (vx v))). cbn. apply andb_false_r.
Qed.

(** *** symbols *)
Definition wordb (s : string) : bool := allc noblank s && negb (String.eqb s "").
Lemma wordb_word s : wordb s = true -> is_word s.
Proof. unfold wordb, is_word. rewrite andb_true_iff, negb_true_iff, String.eqb_neq. tauto. Qed.
Lemma element_word z s : is_element z s -> is_word s.
Proof.
  assert (A : forallb wordb symbols_0_56 = true) by (vm_compute; reflexivity).
  assert (B : forallb wordb symbols_72_88 = true) by (vm_compute; reflexivity).
  rewrite forallb_forall in A, B. intros [[_ H]|[_ H]]; apply nth_error_In in H; apply wordb_word; auto.
Qed.
Lemma dec_word n : is_word (dec n).
Proof. apply digits_word; [apply uint_string_digits|apply nat_text_nonempty]. Qed.
Lemma word_no_nl s : is_word s -> allc no_nl s = true.
Proof. intros [H _]. exact (allc_impl noblank_no_nl H). Qed.
Lemma concat_no_nl sep ws : allc no_nl sep = true -> Forall (fun s => allc no_nl s = true) ws -> allc no_nl (String.concat sep ws) = true.
Proof.
  intros S. induction 1 as [|w ws W F IH]; [reflexivity|]. destruct ws as [|v ws]; [exact W|].
  change (String.concat sep (w :: v :: ws)) with (w ++ (sep ++ String.concat sep (v :: ws))).
  rewrite !allc_app, W, S, IH. reflexivity.
Qed.
Lemma concat_not_blank sep w ws : is_word w -> blank (String.concat sep (w :: ws)) = false.
Proof.
  intros W. destruct ws as [|v ws]; [apply word_not_blank; exact W|].
  change (String.concat sep (w :: v :: ws)) with (w ++ (sep ++ String.concat sep (v :: ws))).
  rewrite blank_app, (word_not_blank W). reflexivity.
Qed.

(** *** species in the order written *)
Lemma ordered_spec nums names : Forall2 is_element nums names ->
  exists zs syms, StronglySorted Z.lt zs /\ (forall z, In z zs <-> In z nums /\ z <> 0) /\ Forall2 is_element zs syms /\
    ordered_atoms names = combine syms (map (fun z => count_occ Z.eq_dec nums z) zs).
Proof.
  intros F.
  set (le := fun a b : string * nat => Z.leb (name_Z (fst a)) (name_Z (fst b))).
  set (l := ordered_atoms names).
  destruct (counter_spec names) as [C1 [C2 C3]].
  assert (InL : forall k v, In (k, v) l <-> In (k, v) (counter names) /\ k <> "G").
  { intros k v. unfold l, ordered_atoms. rewrite filter_In. cbn. rewrite negb_true_iff, String.eqb_neq. split; intros [H1 H2]; (split; [|assumption]).
    - eapply Permutation_in; [apply isort_perm|exact H1].
    - eapply Permutation_in; [symmetry; apply isort_perm|exact H1]. }
  assert (El : forall k v, In (k, v) l -> exists z, In z nums /\ is_element z k /\ z <> 0 /\ v = count_occ Z.eq_dec nums z).
  { intros k v H. apply InL in H. destruct H as [H Hk].
    assert (H0 : In k names) by (apply C2; apply in_map_iff; exists (k, v); auto).
    destruct (names_In _ F H0) as [z [Hz Hzk]]. exists z. split; [assumption|]. split; [assumption|]. split.
    - intros ->. apply element_0 in Hzk. congruence.
    - rewrite <- (names_count F Hzk), <- C3. symmetry. now apply get_count_In. }
  assert (ND : NoDup l).
  { apply NoDup_filter. eapply Permutation_NoDup; [symmetry; apply isort_perm|]. now apply NoDup_map_inv in C1. }
  exists (map (fun kv => name_Z (fst kv)) l), (map fst l). split; [|split; [|split]].
  - assert (SS : StronglySorted (fun a b => le a b = true) l).
    { apply StronglySorted_filter, isort_sorted.
      - intros x y. unfold le. rewrite !Z.leb_le. lia.
      - intros x y z. unfold le. rewrite !Z.leb_le. lia. }
    assert (Ninj : forall k v k' v', In (k, v) l -> In (k', v') l -> name_Z k = name_Z k' -> (k, v) = (k', v')).
    { intros k v k' v' H H' EZ. destruct (El _ _ H) as [z [_ [Hz [_ Hv]]]], (El _ _ H') as [z' [_ [Hz' [_ Hv']]]].
      rewrite (name_Z_element Hz), (name_Z_element Hz') in EZ. subst z'.
      rewrite (element_fun Hz Hz'). congruence. }
    clearbody l. clear - SS ND Ninj. induction SS as [|x l H IH Hx]; cbn; constructor.
    + inversion ND; subst. apply IH; [assumption|]. intros. eapply Ninj; eauto; now right.
    + apply Forall_forall. intros y Hy. apply in_map_iff in Hy. destruct Hy as [kv [<- Hkv]].
      rewrite Forall_forall in Hx. specialize (Hx _ Hkv). unfold le in Hx. apply Z.leb_le in Hx.
      destruct (Z.eq_dec (name_Z (fst x)) (name_Z (fst kv))) as [EZ|NZ]; [|lia].
      exfalso. inversion ND; subst. apply H2. destruct x as [k v], kv as [k' v'].
      rewrite (Ninj k v k' v'); [assumption|now left|now right|assumption].
  - intros z. rewrite in_map_iff. split.
    + intros [[k v] [<- H]]. destruct (El _ _ H) as [z [H1 [H2 [H3 _]]]]. cbn. rewrite (name_Z_element H2). auto.
    + intros [Hz N0]. destruct (nums_In _ F Hz) as [s [Hs Hel]].
      apply C2 in Hs. apply in_map_iff in Hs. destruct Hs as [[k v] [Hk Hkv]]. cbn in Hk. subst k.
      exists (s, v). split; [cbn; now apply name_Z_element|]. apply InL. split; [assumption|].
      intros ->. apply N0. apply (element_inj Hel). now apply element_0.
  - clearbody l. clear - El. induction l as [|[k v] l IH]; cbn; constructor.
    + destruct (El k v) as [z [_ [H2 _]]]; [now left|]. rewrite (name_Z_element H2). exact H2.
    + apply IH. intros k' v' H. apply El. now right.
  - clearbody l. clear - El. induction l as [|[k v] l IH]; cbn; [reflexivity|]. f_equal.
    + destruct (El k v) as [z [_ [H2 [_ H4]]]]; [now left|]. rewrite (name_Z_element H2). congruence.
    + apply IH. intros k' v' H. apply El. now right.
Qed.

(** *** stable sorting groups by key *)
Open Scope Z_scope.
Section Group.
Variable (A : Type) (key : A -> Z).
Let le (a b : A) : bool := key a <=? key b.
Lemma insert_filter z x l : filter (fun a => key a =? z) (insert le x l) = filter (fun a => key a =? z) (x :: l).
Proof.
  induction l as [|y l IH]; [reflexivity|]. cbn [insert]. destruct (le x y) eqn:E; [reflexivity|].
  cbn [filter] in *. rewrite IH. unfold le in E. apply Z.leb_gt in E.
  destruct (Z.eqb_spec (key x) z), (Z.eqb_spec (key y) z); try reflexivity. lia.
Qed.
Lemma isort_filter z l : filter (fun a => key a =? z) (isort le l) = filter (fun a => key a =? z) l.
Proof. induction l as [|x l IH]; [reflexivity|]. cbn [isort]. rewrite insert_filter. cbn [filter]. now rewrite IH. Qed.
Lemma sorted_groups zs : forall l, StronglySorted (fun a b => key a <= key b) l -> StronglySorted Z.lt zs ->
  (forall a, In a l -> In (key a) zs) -> l = flat_map (fun z => filter (fun a => key a =? z) l) zs.
Proof.
  induction zs as [|z zs IH]; intros l S SZ C.
  - destruct l as [|a l]; [reflexivity|]. destruct (C a (or_introl eq_refl)).
  - inversion SZ as [|? ? SZ' Hz]; subst. rewrite Forall_forall in Hz. cbn.
    assert (K : exists l1 l2, l = (l1 ++ l2)%list /\ Forall (fun a => key a = z) l1 /\ Forall (fun a => key a <> z /\ In (key a) zs) l2 /\
                StronglySorted (fun a b => key a <= key b) l2).
    { clear IH. induction S as [|a l S IHl Ha].
      - exists [], []. repeat split; constructor.
      - destruct IHl as (l1 & l2 & -> & F1 & F2 & S2); [intros b B; apply C; now right|].
        destruct (C a (or_introl eq_refl)) as [E|I].
        + exists (a :: l1), l2. split; [reflexivity|]. split; [constructor; auto|]. split; auto.
        + assert (key a > z) by (specialize (Hz _ I); lia). destruct l1 as [|b l1].
          * exists [], (a :: l2). split; [reflexivity|]. split; [constructor|]. split; [constructor; [split; [lia|exact I]|exact F2]|].
            constructor; auto.
          * exfalso. inversion F1; subst. inversion Ha; subst. lia. }
    destruct K as (l1 & l2 & -> & F1 & F2 & S2). rewrite filter_app.
    assert (E1 : filter (fun a => key a =? z) l1 = l1).
    { clear -F1. induction F1 as [|a l E F IH]; [reflexivity|]. cbn. rewrite E, Z.eqb_refl, IH. reflexivity. }
    assert (E2 : filter (fun a => key a =? z) l2 = []).
    { clear -F2. induction F2 as [|a l [E _] F IH]; [reflexivity|]. cbn. destruct (Z.eqb_spec (key a) z); [congruence|exact IH]. }
    rewrite E1, E2, app_nil_r. f_equal.
    rewrite (IH l2 S2 SZ') at 1 by (intros a Ia; rewrite Forall_forall in F2; apply F2; exact Ia).
    assert (G : forall w, In w zs -> filter (fun a => key a =? w) l2 = filter (fun a => key a =? w) (l1 ++ l2)).
    { intros w W. rewrite filter_app. replace (filter (fun a => key a =? w) l1) with (@nil A); [reflexivity|].
      specialize (Hz _ W). clear -F1 Hz. induction F1 as [|a l E F IH]; [reflexivity|]. cbn. destruct (Z.eqb_spec (key a) w); [lia|exact IH]. }
    clear -G. induction zs as [|w zs IH]; [reflexivity|]. cbn. rewrite G by now left. f_equal. apply IH. intros. apply G. now right.
Qed.
End Group.
