(** The order of the enumerations. *)
From Coq Require Import String Sorted.
From Verif Require Import Base LBase BaseQ MGeneralCell SGeneralCell LGeneralCell MComb SSubst LComb SSym LSym MSogen LFilter SOcc SEnum LDup SOrder LSort.
Set Implicit Arguments.
Unset Strict Implicit.
Open Scope nat_scope.

Lemma before_irr s : ~ before s s.
Proof. induction s as [|i s IH]; intros H; inversion H; subst; [lia|auto]. Qed.
Lemma before_trans a b c : before a b -> before b c -> before a c.
Proof.
  intros H. revert c. induction H as [i j s t L|i s t H IH]; intros c K; inversion K; subst.
  - apply before_head. lia.
  - now apply before_head.
  - now apply before_head.
  - apply before_tail. auto.
Qed.
Lemma before2_irr a : ~ before2 a a.
Proof. intros [H|[_ H]]; exact (before_irr H). Qed.
Lemma before2_trans a b c : before2 a b -> before2 b c -> before2 a c.
Proof.
  intros [H|[E H]] [K|[F K]].
  - left. eapply before_trans; eauto.
  - left. now rewrite <- F.
  - left. now rewrite E.
  - right. split; [congruence|]. eapply before_trans; eauto.
Qed.
Lemma before_total a b : length a = length b -> a = b \/ before a b \/ before b a.
Proof.
  revert b. induction a as [|i a IH]; intros [|j b] L; try discriminate; [now left|]. injection L as L.
  destruct (lt_eq_lt_dec i j) as [[H|<-]|H]; [right; left; now apply before_head| |right; right; now apply before_head].
  destruct (IH b L) as [->|[H|H]]; [now left|right; left|right; right]; now apply before_tail.
Qed.

(** two strictly ordered lists with the same members *)
Lemma ordered_unique A (lt : A -> A -> Prop) (irr : forall a, ~ lt a a) (tr : forall a b c, lt a b -> lt b c -> lt a c) a :
  forall b, StronglySorted lt a -> StronglySorted lt b -> (forall x, In x a <-> In x b) -> a = b.
Proof.
  induction a as [|x a IH]; intros [|y b] Ha Hb E; try reflexivity.
  - exfalso. apply (proj2 (E y)). now left.
  - exfalso. apply (proj1 (E x)). now left.
  - inversion Ha as [|? ? Ha1 Ha2]; inversion Hb as [|? ? Hb1 Hb2]; subst. rewrite Forall_forall in Ha2, Hb2.
    assert (x = y).
    { destruct (proj1 (E x) (or_introl eq_refl)) as [|H]; [congruence|].
      destruct (proj2 (E y) (or_introl eq_refl)) as [|K]; [congruence|].
      exfalso. apply (irr x). apply tr with y; auto. }
    subst y. f_equal. apply IH; [assumption..|]. intros z. split; intros Hz.
    + destruct (proj1 (E z) (or_intror Hz)) as [<-|]; [|assumption]. exfalso. apply (irr x). auto.
    + destruct (proj2 (E z) (or_intror Hz)) as [<-|]; [|assumption]. exfalso. apply (irr x). auto.
Qed.

Lemma sorted_app A (R : A -> A -> Prop) a b : StronglySorted R a -> StronglySorted R b ->
  (forall x y, In x a -> In y b -> R x y) -> StronglySorted R (a ++ b).
Proof.
  intros Ha Hb H. induction Ha as [|x a Ha IH F]; cbn; [assumption|]. constructor.
  - apply IH. intros y z Hy. apply H. now right.
  - apply Forall_app. split; [assumption|]. apply Forall_forall. intros y Hy. apply H; [now left|assumption].
Qed.
Lemma sorted_map A B (R : A -> A -> Prop) (Q : B -> B -> Prop) (f : A -> B) l : (forall x y, In x l -> In y l -> R x y -> Q (f x) (f y)) ->
  StronglySorted R l -> StronglySorted Q (map f l).
Proof.
  intros H S. induction S as [|x l S IH F]; cbn; constructor.
  - apply IH. intros y z Hy Hz. apply H; now right.
  - rewrite Forall_forall in *. intros y Hy. apply in_map_iff in Hy. destruct Hy as [z [<- Hz]].
    apply H; [now left|now right|auto].
Qed.
Lemma sorted_flat A B (R : A -> A -> Prop) (Q : B -> B -> Prop) (f : A -> list B) l :
  (forall x, In x l -> StronglySorted Q (f x)) -> (forall x y u v, In x l -> In y l -> R x y -> In u (f x) -> In v (f y) -> Q u v) ->
  StronglySorted R l -> StronglySorted Q (flat_map f l).
Proof.
  intros H1 H2 S. induction S as [|x l S IH F]; cbn; [constructor|]. apply sorted_app.
  - apply H1. now left.
  - apply IH; [intros y Hy; apply H1; now right|]. intros y z u v Hy Hz. apply H2; now right.
  - intros u v Hu Hv. apply in_flat_map in Hv. destruct Hv as [y [Hy Hv]]. rewrite Forall_forall in F.
    apply H2 with x y; [now left|now right|auto|assumption|assumption].
Qed.
Lemma subseq_sorted A (R : A -> A -> Prop) a l : subseq a l -> StronglySorted R l -> StronglySorted R a.
Proof.
  induction 1 as [l|x a l H IH|x a l H IH]; intros S; [constructor| |]; inversion S as [|? ? S1 S2]; subst; [|auto].
  constructor; [auto|]. rewrite Forall_forall in *. intros y Hy. apply S2. now apply (subseq_incl H).
Qed.
Lemma sorted_subseq (a l : list nat) : StronglySorted lt a -> StronglySorted lt l -> incl a l -> subseq a l.
Proof.
  intros Sa Sl. revert a Sa. induction Sl as [|x l Sl IH F]; intros a Sa I.
  - destruct a as [|y a]; [constructor|]. destruct (I y). now left.
  - destruct a as [|y a]; [constructor|]. inversion Sa as [|? ? S1 S2]; subst. rewrite Forall_forall in F, S2.
    destruct (Nat.eq_dec x y) as [<-|N].
    + constructor. apply IH; [assumption|]. intros z Hz. destruct (I z (or_intror Hz)) as [<-|]; [|assumption].
      specialize (S2 _ Hz). lia.
    + constructor. apply IH; [assumption|]. intros z Hz. destruct (I z Hz) as [<-|]; [|assumption]. exfalso.
      destruct Hz as [->|Hz]; [easy|]. destruct (I y (or_introl eq_refl)) as [|Hy]; [contradiction|].
      specialize (F y Hy). specialize (S2 x Hz). lia.
Qed.

(** *** itertools.combinations *)
Lemma combos_sorted (l : list nat) k : StronglySorted lt l -> StronglySorted before (combos l k).
Proof.
  revert k. induction l as [|x l IH]; intros [|k] S; cbn; try (repeat constructor).
  inversion S as [|? ? S1 S2]; subst. apply sorted_app.
  - apply sorted_map with before; [|auto]. intros a b _ _. apply before_tail.
  - apply (IH (Datatypes.S k)). assumption.
  - intros a b Ha Hb. apply in_map_iff in Ha. destruct Ha as [a' [<- _]]. apply combos_In in Hb. destruct Hb as [Hb L].
    destruct b as [|y b]; [discriminate|]. apply before_head. rewrite Forall_forall in S2. apply S2.
    apply (subseq_incl Hb). now left.
Qed.
Lemma combos_choice (P : nat -> Prop) T k S : StronglySorted lt T -> (forall i, In i T <-> P i) ->
  (In S (combos T k) <-> site_choice P k S).
Proof.
  intros ST PT. rewrite combos_In. unfold site_choice, increasing. rewrite Forall_forall. split.
  - intros [H L]. split; [now apply (subseq_sorted H)|]. split; [assumption|]. intros i Hi. apply PT. now apply (subseq_incl H).
  - intros [H [L F]]. split; [|assumption]. apply sorted_subseq; [assumption|assumption|]. intros i Hi. apply PT. auto.
Qed.

(** *** what [firsts] gives *)
Lemma firsts_map A B (f : A -> B) (R : B -> B -> Prop) seen l out :
  firsts R (map f seen) (map f l) out -> exists l', out = map f l' /\ firsts (fun a b => R (f a) (f b)) seen l l'.
Proof.
  revert seen out. induction l as [|x l IH]; intros seen out H; cbn in H.
  - inversion H; subst. exists []. split; [reflexivity|constructor].
  - inversion H as [|? ? ? out' N K|? ? ? ? y Hy Ry K]; subst.
    + destruct (IH (x :: seen) _ K) as [l' [-> K']]. exists (x :: l'). split; [reflexivity|]. constructor; [|assumption].
      intros y Hy. apply N. now apply in_map.
    + destruct (IH (x :: seen) _ K) as [l' [-> K']]. exists l'. split; [reflexivity|].
      apply in_map_iff in Hy. destruct Hy as [z [<- Hz]]. apply firsts_old with z; assumption.
Qed.
Lemma firsts_subseq A (R : A -> A -> Prop) seen l out : firsts R seen l out -> subseq out l.
Proof. induction 1; now constructor. Qed.
Lemma firsts_In A (R : A -> A -> Prop) (lt : A -> A -> Prop) (irr : forall a, ~ lt a a) (tr : forall a b c, lt a b -> lt b c -> lt a c)
  seen l out : firsts R seen l out -> StronglySorted lt l -> (forall u t, In u seen -> In t l -> lt u t) ->
  forall t, In t out <-> In t l /\ (forall u, In u seen -> ~ R u t) /\ forall u, In u l -> lt u t -> ~ R u t.
Proof.
  induction 1 as [seen|seen x l out N H IH|seen x l out y Hy Ry H IH]; intros S B t.
  - cbn. tauto.
  - inversion S as [|? ? S1 S2]; subst. rewrite Forall_forall in S2.
    assert (B' : forall u t, In u (x :: seen) -> In t l -> lt u t).
    { intros u w [<-|Hu] Hw; [auto|]. apply B; [assumption|now right]. }
    specialize (IH S1 B' t). cbn [In]. rewrite IH. split.
    + intros [<-|[K1 [K2 K3]]].
      * split; [now left|]. split; [assumption|]. intros u [<-|Hu] L; [destruct (irr _ L)|].
        exfalso. apply (irr x). apply tr with u; auto.
      * split; [now right|]. split; [intros u Hu; apply K2; now right|]. intros u [<-|Hu] L; [apply K2; now left|auto].
    + intros [[<-|K1] [K2 K3]]; [now left|]. right. split; [assumption|]. split.
      * intros u [<-|Hu]; [apply K3; [now left|auto]|auto].
      * intros u Hu. apply K3. now right.
  - inversion S as [|? ? S1 S2]; subst. rewrite Forall_forall in S2.
    assert (B' : forall u t, In u (x :: seen) -> In t l -> lt u t).
    { intros u w [<-|Hu] Hw; [auto|]. apply B; [assumption|now right]. }
    specialize (IH S1 B' t). cbn [In]. rewrite IH. split.
    + intros [K1 [K2 K3]]. split; [now right|]. split; [intros u Hu; apply K2; now right|].
      intros u [<-|Hu] L; [apply K2; now left|auto].
    + intros [[<-|K1] [K2 K3]]; [destruct (K2 y Hy Ry)|]. split; [assumption|]. split.
      * intros u [<-|Hu]; [apply K3; [now left|auto]|auto].
      * intros u Hu. apply K3. now right.
Qed.
(** removing repetitions first changes nothing *)
Lemma firsts_twice A (R : A -> A -> Prop) seen seen' s l out : (forall x, In x (seen ++ s) -> R x x) ->
  firsts eq seen s l -> firsts R seen' l out -> (forall x, In x seen <-> In x seen') -> firsts R seen s out.
Proof.
  intros Rf H. revert seen' out. induction H as [seen|seen x s l N H IH|seen x s l y Hy <- H IH]; intros seen' out K E.
  - inversion K; subst. constructor.
  - assert (Rf' : forall z, In z ((x :: seen) ++ s) -> R z z).
    { intros z Hz. apply Rf. apply in_app_iff. apply in_app_iff in Hz. cbn in *. tauto. }
    specialize (IH Rf'). inversion K as [|? ? ? out' N' K'|? ? ? ? y Hy Ry K']; subst.
    + constructor; [intros y Hy; apply N'; now apply E|]. apply IH with (x :: seen'); [assumption|]. intros z. cbn. now rewrite E.
    + apply firsts_old with y; [now apply E|assumption|]. apply IH with (x :: seen'); [assumption|]. intros z. cbn. now rewrite E.
  - assert (Rf' : forall z, In z ((y :: seen) ++ s) -> R z z).
    { intros z Hz. apply Rf. apply in_app_iff. apply in_app_iff in Hz. cbn in *. tauto. }
    apply firsts_old with y; [assumption|apply Rf; apply in_app_iff; now left|].
    apply (IH Rf') with seen'; [assumption|]. intros z. cbn. rewrite E. split; [|tauto]. intros [<-|]; [now apply E|assumption].
Qed.

(** *** the duplicate filter keeps the first member of every class *)
Lemma nodup_firsts h n G (D : list Z -> Prop) : perm_group n G ->
  (forall x, D x -> length x = n) -> (forall x y, D x -> equivalent G x y -> D y) -> collision_free h D ->
  forall cells fin iso seen, (forall c, In c cells -> D (numbers c)) -> (forall c, In c seen -> D (numbers c)) ->
  (forall x, D x -> (In (h x) iso <-> exists c, In c seen /\ equivalent G (numbers c) x)) ->
  exists out, nodup_loop h G (fun c => c) iso cells fin = mkTrace out fin /\
    firsts (fun a b => equivalent G (numbers a) (numbers b)) seen cells out.
Proof.
  intros HG DL DC CF. pose proof HG as [HP _]. induction cells as [|c cells IH]; intros fin iso seen HD HS HI; cbn [nodup_loop].
  - exists []. split; [reflexivity|constructor].
  - assert (Dc : D (numbers c)) by (apply HD; now left).
    assert (HD' : forall d, In d cells -> D (numbers d)) by (intros d Hd; apply HD; now right).
    assert (HS' : forall d, In d (c :: seen) -> D (numbers d)) by (intros d [<-|Hd]; auto).
    unfold cell_id. destruct (memZ (h (numbers c)) iso) eqn:Em.
    + apply memZ_In in Em. apply (HI _ Dc) in Em. destruct Em as [d [Hd Ed]].
      destruct (IH fin iso (c :: seen) HD' HS') as [out [E F]].
      { intros x Dx. rewrite (HI x Dx). split; [intros [e [He Ee]]; exists e; split; [now right|assumption]|].
        intros [e [[<-|He] Ee]]; [|eauto]. exists d. split; [assumption|].
        apply (equivalent_trans HG) with (numbers c); [apply DL; auto|assumption|assumption]. }
      exists out. split; [assumption|]. now apply firsts_old with d.
    + apply memZ_false in Em. rewrite (update_isoset_ok h HP iso (incl_refl G) (DL _ Dc)).
      destruct (IH fin (rev (map (fun p => h (act_perm (numbers c) p)) G) ++ iso) (c :: seen) HD' HS') as [out [E F]].
      { intros x Dx. rewrite in_app_iff, <- in_rev, in_map_iff, (HI x Dx). split.
        - intros [[p [Hx Hp]]|[e [He Ee]]].
          + exists c. split; [now left|].
            assert (Eq : equivalent G (numbers c) (act_perm (numbers c) p)) by (exists p; split; [assumption|]; apply act_perm_reordered with n; auto).
            assert (Ex : act_perm (numbers c) p = x) by (apply CF; [exact (DC _ _ Dc Eq)|exact Dx|exact Hx]).
            rewrite <- Ex. exact Eq.
          + exists e. split; [now right|assumption].
        - intros [e [[<-|He] Ee]]; [left|right; eauto]. destruct Ee as [p [Hp R]]. exists p. split; [|assumption]. f_equal.
          apply (reordered_fun (act_perm_reordered (HP p Hp) (DL _ Dc)) R). }
      rewrite E. cbn. exists (c :: out). split; [reflexivity|]. constructor; [|assumption].
      intros d Hd Ed. apply Em. apply (HI _ Dc). eauto.
Qed.
Lemma filter_firsts h o n (D : list Z -> Prop) dup : perm_group n (sym_perm o) ->
  (forall x, D x -> length x = n) -> (forall x y, D x -> equivalent (sym_perm o) x y -> D y) -> collision_free h D ->
  (forall c, In c (items dup) -> D (numbers c)) ->
  exists out, gen_2nodup_gen h o dup = mkTrace out (stop dup) /\
    firsts (fun a b => equivalent (sym_perm o) (numbers a) (numbers b)) [] (items dup) out.
Proof.
  intros HG DL DC CF HD. unfold gen_2nodup_gen, gen_2nodup_gen_with.
  apply (nodup_firsts HG DL DC CF); [assumption|easy|]. intros x _. split; [easy|]. intros [c [[] _]].
Qed.
