(** The ternary generator in order; the list is determined; the two strategies agree. *)
From Coq Require Import String Sorted.
From Verif Require Import Base LBase BaseQ MGeneralCell SGeneralCell LGeneralCell MComb SSubst LComb SSym LSym MSogen LFilter SOcc SEnum LDup LLevels SOrder LSort LOrder LOrder2 LOrder3 LOrder4 LSogen.
Set Implicit Arguments.
Unset Strict Implicit.
Open Scope nat_scope.

(** *** the order determines the list *)
Lemma same_cell c0 a b : same_frame c0 a -> same_frame c0 b -> numbers a = numbers b -> a = b.
Proof.
  intros [A1 [A2 [A3 [A4 A5]]]] [B1 [B2 [B3 [B4 B5]]]] E. unfold views_agree in *. destruct a, b; cbn in *. subst. congruence.
Qed.
Lemma in_order_unique o v (Q Q' : list nat -> Prop) t t' : (forall S, Q S <-> Q' S) -> in_order o v Q t -> in_order o v Q' t' -> t = t'.
Proof.
  intros QQ [Ss [S1 [H1 [E1 F1]]]] [Ss' [S2 [H2 [E2 F2]]]].
  assert (Ss = Ss').
  { apply (ordered_unique before_irr before_trans S1 S2). intros S. rewrite H1, H2. apply QQ. }
  subst Ss'. destruct t as [l e], t' as [l' e']; cbn in *. subst e e'. f_equal. clear - F1 F2.
  revert l' F2. induction F1 as [|S c Ss l [Hf Hs] F IH]; intros l' F2; inversion F2 as [|? c' ? l'' [Hf' Hs'] F']; subst; [reflexivity|].
  f_equal; [|auto]. apply (same_cell Hf Hf'). exact (substituted_fun (fun i => iff_refl _) Hs Hs').
Qed.
Lemma substituted2_fun init a v1 v2 x y : substituted2 init a v1 v2 x -> substituted2 init a v1 v2 y -> x = y.
Proof.
  intros [Lx Hx] [Ly Hy]. apply list_ext. intros i. destruct (nth_error init i) as [z|] eqn:E.
  - destruct (Hx i z E) as [X1 [X2 X3]], (Hy i z E) as [Y1 [Y2 Y3]].
    destruct (in_dec Nat.eq_dec i (fst a)) as [I|I]; [now rewrite X1, Y1|].
    destruct (in_dec Nat.eq_dec i (snd a)) as [J|J]; [now rewrite X2, Y2|]. now rewrite X3, Y3.
  - apply nth_error_None in E. transitivity (@None Z); [|symmetry]; apply nth_error_None; lia.
Qed.
Lemma in_order2_unique o v1 v2 (Q : list nat * list nat -> Prop) t t' : in_order2 o v1 v2 Q t -> in_order2 o v1 v2 Q t' -> t = t'.
Proof.
  intros [Ss [S1 [H1 [E1 F1]]]] [Ss' [S2 [H2 [E2 F2]]]].
  assert (Ss = Ss').
  { apply (ordered_unique before2_irr before2_trans S1 S2). intros S. rewrite H1, H2. tauto. }
  subst Ss'. destruct t as [l e], t' as [l' e']; cbn in *. subst e e'. f_equal. clear - F1 F2.
  revert l' F2. induction F1 as [|S c Ss l [Hf Hs] F IH]; intros l' F2; inversion F2 as [|? c' ? l'' [Hf' Hs'] F']; subst; [reflexivity|].
  f_equal; [|auto]. apply (same_cell Hf Hf'). exact (substituted2_fun Hs Hs').
Qed.
Lemma leader_ext G init (P P' : nat -> Prop) n v S : (forall i, P i <-> P' i) -> leader G init P n v S <-> leader G init P' n v S.
Proof.
  intros E. assert (C : forall T, site_choice P n T <-> site_choice P' n T).
  { intros T. unfold site_choice. rewrite !Forall_forall. split; intros [A [B H]]; repeat split; auto; intros i Hi; apply E; auto. }
  unfold leader. rewrite C. split; intros [A H]; (split; [exact A|]); intros T x y CT; apply H; now apply C.
Qed.

(** *** ternary *)
Section Ternary.
Context (o : occ) (n1 n2 : nat) (v1 v2 : Z).
Hypothesis FC : from_constructor (init_cell o).
Let init := numbers (init_cell o).
Let g (a : list nat * list nat) := two_put init v1 v2 (fst a) (snd a).
Definition tags2 := flat_map (fun c1 => map (fun c2 => (c1, c2))
      (combos (filter (fun x => negb (existsb (Nat.eqb x) c1)) (seq 0 (length init))) n2)) (combos (seq 0 (length init)) n1).
Lemma tern_trace : gen_dup_trinary_alloy o v1 (Z.of_nat n1) v2 (Z.of_nat n2) = mkTrace (map (fun a => cellof (init_cell o) (g a)) tags2) None.
Proof.
  rewrite trinary_items by assumption. f_equal. unfold tags2. fold init. generalize (combos (seq 0 (length init)) n1).
  induction l as [|c1 l IH]; cbn; [reflexivity|]. rewrite map_app, map_map, IH. reflexivity.
Qed.
Lemma notin c1 x : negb (existsb (Nat.eqb x) c1) = true <-> ~ In x c1.
Proof.
  rewrite negb_true_iff, <- not_true_iff_false, existsb_exists. split; intros H K; apply H.
  - exists x. split; [assumption|apply Nat.eqb_refl].
  - destruct K as [m [Hm Em]]. apply Nat.eqb_eq in Em. congruence.
Qed.
Lemma tags2_In a : In a tags2 <-> pair_choice (any_site init) n1 n2 a.
Proof.
  unfold tags2, pair_choice. rewrite in_flat_map. destruct a as [c1 c2]; cbn [fst snd].
  assert (E1 : forall c, In c (combos (seq 0 (length init)) n1) <-> site_choice (any_site init) n1 c).
  { intros c. apply combos_choice; [apply seq_sorted|apply any_list]. }
  assert (E2 : forall c c', In c' (combos (filter (fun x => negb (existsb (Nat.eqb x) c)) (seq 0 (length init))) n2) <->
    site_choice (any_site init) n2 c' /\ forall i, In i c -> ~ In i c').
  { intros c c'. rewrite (combos_choice (P := fun i => any_site init i /\ ~ In i c)).
    - unfold site_choice. rewrite !Forall_forall. split.
      + intros [A [B F]]. split; [repeat split; auto; intros i Hi; now apply F|]. intros i Hi K. now apply (F i K).
      + intros [[A [B F]] K]. repeat split; auto. intros Hc. exact (K x Hc H).
    - apply StronglySorted_filter, seq_sorted.
    - intros i. rewrite filter_In, notin, (any_list init i). tauto. }
  split.
  - intros [c [Hc Hm]]. apply in_map_iff in Hm. destruct Hm as [c' [E Hc']]. injection E as -> ->. rewrite E1 in Hc. apply E2 in Hc'. tauto.
  - intros [A [B F]]. exists c1. split; [now apply E1|]. apply in_map_iff. exists c2. split; [reflexivity|]. apply E2. auto.
Qed.
Lemma tags2_sorted : StronglySorted before2 tags2.
Proof.
  unfold tags2. apply sorted_flat with (R := before).
  - intros c _. apply sorted_map with before; [intros x y _ _ B; right; auto|]. apply combos_sorted. apply StronglySorted_filter, seq_sorted.
  - intros x y u w _ _ B Hu Hw. apply in_map_iff in Hu, Hw. destruct Hu as [? [<- _]], Hw as [? [<- _]]. now left.
  - apply combos_sorted, seq_sorted.
Qed.
Lemma g_sub a : pair_choice (any_site init) n1 n2 a -> substituted2 init a v1 v2 (g a).
Proof.
  intros [_ [_ D]]. split; [apply two_put_length|]. intros i z Hz. unfold g. rewrite (two_put_nth _ _ _ _ Hz).
  destruct (in_dec Nat.eq_dec i (fst a)) as [I|I], (in_dec Nat.eq_dec i (snd a)) as [J|J]; try (destruct (D i I J)); repeat split; intros; try easy.
Qed.
Lemma in_order2_intro (Q : list nat * list nat -> Prop) Ss : StronglySorted before2 Ss -> (forall a, In a Ss <-> Q a) ->
  (forall a, Q a -> pair_choice (any_site init) n1 n2 a) -> in_order2 o v1 v2 Q (mkTrace (map (fun a => cellof (init_cell o) (g a)) Ss) None).
Proof.
  intros H1 H2 H3. exists Ss. split; [assumption|]. split; [assumption|]. split; [reflexivity|]. cbn.
  assert (H4 : forall a, In a Ss -> pair_choice (any_site init) n1 n2 a) by (intros a Ha; apply H3; now apply H2).
  clear H1 H2 H3. induction Ss as [|a Ss IH]; cbn; constructor.
  - split; [apply cellof_frame; [assumption|apply two_put_length]|]. apply g_sub. apply H4. now left.
  - apply IH. intros b Hb. apply H4. now right.
Qed.
Lemma tern_dup : in_order2 o v1 v2 (pair_choice (any_site init) n1 n2) (gen_dup_trinary_alloy o v1 (Z.of_nat n1) v2 (Z.of_nat n2)).
Proof. rewrite tern_trace. apply in_order2_intro; [apply tags2_sorted|apply tags2_In|auto]. Qed.

Lemma g_two a : pair_choice (any_site init) n1 n2 a -> two_fold init n1 v1 n2 v2 (g a).
Proof.
  intros H. pose proof (g_sub H) as [L K]. destruct H as [[I1 [L1 F1]] [[I2 [L2 F2]] D]].
  assert (ND : forall S, increasing S -> NoDup S).
  { intros S I. induction I as [|x l I IH F]; constructor; [|assumption]. intros Kx. rewrite Forall_forall in F. specialize (F x Kx). lia. }
  rewrite Forall_forall in F1, F2. exists (fst a), (snd a).
  split; [split; [auto|split; assumption]|]. split; [split; [auto|split; assumption]|]. split; [assumption|]. split; [exact L|exact K].
Qed.
Lemma tern_nodup h : perm_group (length init) (sym_perm o) -> preserves (sym_perm o) init -> collision_free h (two_fold init n1 v1 n2 v2) ->
  in_order2 o v1 v2 (leader2 (sym_perm o) init (any_site init) n1 n2 v1 v2) (gen_nodup_trinary_alloy h o v1 (Z.of_nat n1) v2 (Z.of_nat n2)).
Proof.
  intros HG Pr CF. unfold gen_nodup_trinary_alloy. rewrite tern_trace.
  destruct (@filter_tags o h HG _ before2 before2_irr before2_trans (two_fold init n1 v1 n2 v2) g tags2) as [kept [E [S1 S2]]].
  - intros x [? [? [_ [_ [_ [L _]]]]]]. exact L.
  - intros x y Hx Eq. eapply two_fold_closed; eauto.
  - assumption.
  - intros a Ha. apply g_two. now apply tags2_In.
  - apply tags2_sorted.
  - rewrite E. apply in_order2_intro; [assumption| |intros a [C _]; exact C].
    intros a. rewrite S2, tags2_In. unfold leader2. split; intros [C K]; (split; [exact C|]).
    + intros b x y Cb Hx Hy Eq B. apply (K b); [now apply tags2_In|assumption|].
      rewrite (substituted2_fun (g_sub Cb) Hx), (substituted2_fun (g_sub C) Hy). exact Eq.
    + intros b Hb B Eq. apply tags2_In in Hb. exact (K b _ _ Hb (g_sub Hb) (g_sub C) Eq B).
Qed.
End Ternary.

(** *** the three kinds *)
Lemma site_list (P : nat -> Prop) (b : nat -> bool) n : (forall i, P i <-> i < n /\ b i = true) ->
  StronglySorted lt (filter b (seq 0 n)) /\ forall i, In i (filter b (seq 0 n)) <-> P i.
Proof.
  intros H. split; [apply StronglySorted_filter, seq_sorted|]. intros i. rewrite filter_In, in_seq, H. cbn. intuition lia.
Qed.
Definition not_b (init : list Z) sp i := match nth_error init i with Some a => negb (Z.eqb a sp) | None => false end.
Lemma not_b_ok init sp i : not_b init sp i = true <-> site_not init sp i.
Proof.
  unfold not_b, site_not. destruct (nth_error init i) as [a|]; [rewrite negb_true_iff, Z.eqb_neq|].
  - split; [eauto|]. intros [b [E N]]. congruence.
  - split; [discriminate|]. intros [b [E _]]. discriminate.
Qed.
Lemma site_not_lt init sp i : site_not init sp i -> i < length init.
Proof. intros [a [E _]]. apply nth_error_Some. congruence. Qed.
Lemma level_count o n sp (step : trace gcell -> trace gcell) t0 k t : nth_error (levels step (num_levels o n sp) t0) k = Some t ->
  S k <= Z.to_nat (n - Z.of_nat (count_occ Z.eq_dec (numbers (init_cell o)) sp)).
Proof.
  intros E. assert (K : k < length (levels step (num_levels o n sp) t0)) by (apply nth_error_Some; congruence).
  rewrite levels_length in K. unfold num_levels in K. rewrite get_speckle_num_spec in K. lia.
Qed.
