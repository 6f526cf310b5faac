(** The order of the enumerations: substitution on the sites of one kind. *)
From Coq Require Import String Sorted.
From Verif Require Import Base LBase BaseQ MGeneralCell SGeneralCell LGeneralCell MComb SSubst LComb SSym LSym MSogen LFilter SOcc SEnum LDup SOrder LSort LOrder LSogen.
Set Implicit Arguments.
Unset Strict Implicit.
Open Scope nat_scope.

Lemma leader_puts G init (P : nat -> Prop) n v S : (forall i, P i -> i < length init) ->
  (leader G init P n v S <-> site_choice P n S /\
     forall T, site_choice P n T -> before T S -> ~ equivalent G (puts init T v) (puts init S v)).
Proof.
  intros PL. assert (B : forall T, site_choice P n T -> substituted init T v (puts init T v)).
  { intros T [_ [_ F]]. rewrite Forall_forall in F. apply puts_substituted. intros i Hi. auto. }
  split; intros [C H]; (split; [exact C|]).
  - intros T CT BT E. exact (H T _ _ CT (B T CT) (B S C) E BT).
  - intros T x y CT Hx Hy E BT. apply (H T CT BT).
    rewrite (substituted_fun (fun i => iff_refl _) (B T CT) Hx), (substituted_fun (fun i => iff_refl _) (B S C) Hy). exact E.
Qed.

Section O.
Context (o : occ).
Hypothesis FC : from_constructor (init_cell o).
Let init := numbers (init_cell o).
Definition shown v S := cellof (init_cell o) (puts init S v).

Lemma in_order_intro v (Q : list nat -> Prop) Ss : StronglySorted before Ss -> (forall S, In S Ss <-> Q S) ->
  (forall S, Q S -> forall i, In i S -> i < length init) -> in_order o v Q (mkTrace (map (shown v) Ss) None).
Proof.
  intros H1 H2 H3. exists Ss. split; [assumption|]. split; [assumption|]. split; [reflexivity|]. cbn.
  assert (H4 : forall S, In S Ss -> forall i, In i S -> i < length init) by (intros S HS; apply H3; now apply H2).
  clear H1 H2 H3. induction Ss as [|S Ss IH]; cbn; constructor.
  - split; [apply cellof_frame; [assumption|apply puts_length]|]. apply puts_substituted. apply H4. now left.
  - apply IH. intros S' HS'. apply H4. now right.
Qed.

Section Kind.
Context (P : nat -> Prop) (T : list nat).
Hypothesis ST : StronglySorted lt T.
Hypothesis PT : forall i, In i T <-> P i.
Hypothesis PL : forall i, P i -> i < length init.

Lemma choice_lt n S : site_choice P n S -> forall i, In i S -> i < length init.
Proof. intros [_ [_ F]] i Hi. rewrite Forall_forall in F. auto. Qed.
Lemma dup_trace n v : gen_of (put_cell o v) (combinations T (Z.of_nat n)) = mkTrace (map (shown v) (combos T n)) None.
Proof.
  unfold combinations. destruct (Z.ltb_spec (Z.of_nat n) 0); [lia|]. rewrite Nat2Z.id. cbn [gen_of].
  apply gen_map_ok. intros S HS. apply (put_cell_ok FC). apply (choice_lt (n := n)). now apply (combos_choice n S ST PT).
Qed.
Lemma dup_in_order n v : in_order o v (site_choice P n) (gen_of (put_cell o v) (combinations T (Z.of_nat n))).
Proof.
  rewrite dup_trace. apply in_order_intro.
  - now apply combos_sorted.
  - intros S. now apply combos_choice.
  - intros S. apply choice_lt.
Qed.

Lemma choice_kfold n v S : site_choice P n S -> k_fold init P n v (puts init S v).
Proof.
  intros C. exists S. split; [|apply puts_substituted; now apply (choice_lt C)].
  destruct C as [I [L F]]. rewrite Forall_forall in F. split; [|split; assumption].
  clear - I. induction I as [|x l I IH F]; constructor; [|assumption]. intros K. rewrite Forall_forall in F. specialize (F x K). lia.
Qed.

Context (h : list Z -> Z).
Hypothesis HG : perm_group (length init) (sym_perm o).
Hypothesis Pr : preserves (sym_perm o) init.
Hypothesis Inv : invariant (sym_perm o) P.

(** the filter on structures that are listed in the order of some tags *)
Lemma filter_tags A (lt : A -> A -> Prop) (irr : forall a, ~ lt a a) (tr : forall a b c, lt a b -> lt b c -> lt a c)
  (D : list Z -> Prop) (f : A -> list Z) tags :
  (forall x, D x -> length x = length init) -> (forall x y, D x -> equivalent (sym_perm o) x y -> D y) -> collision_free h D ->
  (forall a, In a tags -> D (f a)) -> StronglySorted lt tags ->
  exists kept, gen_2nodup_gen h o (mkTrace (map (fun a => cellof (init_cell o) (f a)) tags) None) =
      mkTrace (map (fun a => cellof (init_cell o) (f a)) kept) None /\ StronglySorted lt kept /\
    forall a, In a kept <-> In a tags /\ forall b, In b tags -> lt b a -> ~ equivalent (sym_perm o) (f b) (f a).
Proof.
  intros DL DC CF HD S.
  destruct (@filter_firsts h o (length init) D (mkTrace (map (fun a => cellof (init_cell o) (f a)) tags) None) HG DL DC CF) as [out [E F]].
  { intros c Hc. cbn in Hc. apply in_map_iff in Hc. destruct Hc as [a [<- Ha]]. cbn. auto. }
  cbn [items stop] in *. change (@nil gcell) with (map (fun a => cellof (init_cell o) (f a)) (@nil A)) in F.
  apply firsts_map in F. destruct F as [kept [-> F]]. exists kept. split; [assumption|]. split.
  - apply (subseq_sorted (firsts_subseq F) S).
  - intros a. rewrite (firsts_In irr tr F S); [|easy]. cbn. split; [tauto|]. intros [H1 H2]. split; [assumption|]. split; [easy|assumption].
Qed.

Lemma nodup_in_order n v : collision_free h (k_fold init P n v) ->
  in_order o v (leader (sym_perm o) init P n v) (gen_2nodup_gen h o (gen_of (put_cell o v) (combinations T (Z.of_nat n)))).
Proof.
  intros CF. rewrite dup_trace.
  destruct (@filter_tags (list nat) before before_irr before_trans (k_fold init P n v) (fun S => puts init S v) (combos T n)) as [kept [E [S1 S2]]].
  - intros x. apply kfold_length.
  - intros x y Hx Eq. eapply kfold_closed; eauto.
  - assumption.
  - intros S HS. apply choice_kfold. now apply (combos_choice n S ST PT).
  - now apply combos_sorted.
  - unfold shown. rewrite E. apply in_order_intro; [assumption| |intros S [C _]; exact (choice_lt C)].
    intros S. rewrite S2, (leader_puts _ _ _ _ PL), (combos_choice n S ST PT). split; intros [C K]; (split; [exact C|]).
    + intros U CU. apply K. now apply (combos_choice n U ST PT).
    + intros U CU. apply K. now apply (combos_choice n U ST PT).
Qed.
End Kind.
End O.

(** site lists used by the three generators *)
Lemma sp_ind_sorted A (f : A -> bool) (l : list A) : StronglySorted lt (map fst (filter (fun ie => f (snd ie)) (enumerate l))).
Proof.
  assert (G : forall l' : list (nat * A), StronglySorted lt (map fst l') -> StronglySorted lt (map fst (filter (fun ie => f (snd ie)) l'))).
  { induction l' as [|[i a] l' IH]; cbn; intros H; [constructor|]. inversion H as [|? ? H1 H2]; subst.
    destruct (f a); cbn; [|auto]. constructor; [auto|]. rewrite Forall_forall in *. intros j Hj. apply H2.
    apply in_map_iff in Hj. destruct Hj as [x [E Hx]]. apply filter_In in Hx. apply in_map_iff. exists x. tauto. }
  apply G. unfold enumerate, range. rewrite map_fst_combine by (now rewrite seq_length). apply seq_sorted.
Qed.
Lemma any_list (init : list Z) i : In i (range (length init)) <-> any_site init i.
Proof. unfold range, any_site. rewrite in_seq. lia. Qed.
Lemma holds_list (init : list Z) ele i : In i (map fst (filter (fun ie => Z.eqb (snd ie) ele) (enumerate init))) <-> site_holds init ele i.
Proof.
  rewrite (sp_ind_filter (fun e => Z.eqb e ele)). unfold site_holds. split.
  - intros [a [H1 H2]]. apply Z.eqb_eq in H2. congruence.
  - intros H. exists ele. split; [assumption|apply Z.eqb_refl].
Qed.
Lemma letter_list (ws : list string) wy i : In i (map fst (filter (fun ie => String.eqb (snd ie) wy) (enumerate ws))) <-> site_letter ws wy i.
Proof.
  rewrite (sp_ind_filter (fun e => String.eqb e wy)). unfold site_letter. split.
  - intros [a [H1 H2]]. apply String.eqb_eq in H2. congruence.
  - intros H. exists wy. split; [assumption|apply String.eqb_refl].
Qed.
