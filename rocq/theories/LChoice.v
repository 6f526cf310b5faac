(** Independence of the enumeration from arbitrary choices. *)
From Coq Require Import String.
From Verif Require Import Base LBase BaseQ MGeneralCell SGeneralCell LGeneralCell MComb SSubst SSym MSogen LFilter SOcc SEnum LDup LLevels LMisc LSym LSymDec LSogen SChoice.
Set Implicit Arguments.
Unset Strict Implicit.
Open Scope list_scope.
Open Scope nat_scope.
Notation length := List.length.

Lemma FOP_perm A (R : A -> A -> Prop) l l' : (forall a b, R a b -> R b a) -> Permutation l l' -> ForallOrdPairs R l -> ForallOrdPairs R l'.
Proof.
  intros S P. induction P as [|x l l' P IH|x y l|l l1 l2 P1 IH1 P2 IH2]; intros F; auto.
  - inversion F as [|? ? H K]; subst. constructor; [|auto]. rewrite Forall_forall in *. intros a Ha. apply H. eapply Permutation_in; [symmetry; exact P|exact Ha].
  - inversion F as [|? ? H K]; subst. inversion K as [|? ? H' K']; subst. inversion H; subst. constructor; [constructor; auto|constructor; auto].
Qed.

Lemma classes_match A (E : A -> A -> Prop) (D : A -> Prop) :
  (forall x y, D x -> E x y -> E y x) -> (forall x y z, D x -> E x y -> E y z -> E x z) ->
  forall l l', Forall D l -> Forall D l' ->
  ForallOrdPairs (fun a b => ~ E a b /\ ~ E b a) l -> ForallOrdPairs (fun a b => ~ E a b /\ ~ E b a) l' ->
  (forall x, In x l -> exists y, In y l' /\ E x y) -> (forall y, In y l' -> exists x, In x l /\ E y x) -> same_classes E l l'.
Proof.
  intros SY TR. induction l as [|x l IH]; intros l' Dl Dl' Pl Pl' C1 C2.
  - destruct l' as [|y l']; [exists []; split; constructor|]. destruct (C2 y) as (x & [] & _). now left.
  - destruct (C1 x) as (y & Hy & Exy); [now left|]. destruct (in_split _ _ Hy) as (a & b & ->).
    assert (PM : Permutation (a ++ y :: b) (y :: a ++ b)) by (symmetry; apply Permutation_middle).
    apply (FOP_perm (l' := y :: a ++ b)) in Pl'; [|tauto|exact PM].
    assert (Dr : Forall D (y :: a ++ b)). { rewrite Forall_forall in *. intros z Hz. apply Dl'. apply (Permutation_in _ (Permutation_sym PM) Hz). }
    inversion Pl' as [|? ? Hyr Pr]; subst. inversion Dr as [|? ? Dy Dr']; subst. inversion Pl as [|? ? Hxl Pl2]; subst. inversion Dl as [|? ? Dx Dl2]; subst.
    rewrite Forall_forall in Hyr, Hxl, Dl2. assert (Dr2 := Dr'). rewrite Forall_forall in Dr2.
    destruct (IH (a ++ b)) as (l2 & P2 & F2); auto.
    + now apply Forall_forall.
    + intros x' Hx'. destruct (C1 x') as (y' & Hy' & E'); [now right|]. apply (Permutation_in _ PM) in Hy'. destruct Hy' as [<-|Hy']; [|eauto].
      exfalso. apply (proj1 (Hxl x' Hx')). apply (TR x y x' Dx Exy). apply SY; auto.
    + intros y' Hy'. destruct (C2 y') as (x' & [<-|Hx'] & E'); [apply (Permutation_in _ (Permutation_sym PM)); now right| |eauto].
      exfalso. apply (proj2 (Hyr y' Hy')). apply (TR y' x y); auto.
    + exists (y :: l2). split; [rewrite PM; now constructor|]. now constructor.
Qed.

Lemma transversal_match A (E : A -> A -> Prop) (D : A -> Prop) l l' :
  (forall x y, D x -> E x y -> E y x) -> (forall x y z, D x -> E x y -> E y z -> E x z) ->
  transversal E D l -> transversal E D l' -> same_classes E l l'.
Proof.
  intros SY TR (F & C & P) (F' & C' & P'). rewrite Forall_forall in F, F'. apply (classes_match SY TR); auto; now apply Forall_forall.
Qed.

(** A map that carries [E] to [E'] carries transversals to transversals. *)
Lemma transversal_map A B (f : A -> B) (E : A -> A -> Prop) (E' : B -> B -> Prop) (D : A -> Prop) (D' : B -> Prop) l :
  (forall x, D x -> D' (f x)) -> (forall y, D' y -> exists x, D x /\ f x = y) -> (forall x y, D x -> D y -> (E x y <-> E' (f x) (f y))) ->
  transversal E D l -> transversal E' D' (map f l).
Proof.
  intros H1 H2 H3 (F & C & P). rewrite Forall_forall in F. split; [|split].
  - apply Forall_forall. intros y Hy. apply in_map_iff in Hy. destruct Hy as (x & <- & Hx). auto.
  - intros y Dy. destruct (H2 y Dy) as (x & Dx & <-). destruct (C x Dx) as (x' & Hx' & Exx). exists (f x'). split; [now apply in_map|]. apply H3; auto.
  - clear C. induction P as [|x l H P IH]; cbn; constructor.
    + rewrite Forall_forall in *. intros y Hy. apply in_map_iff in Hy. destruct Hy as (x' & <- & Hx'). destruct (H x' Hx').
      assert (D x) by (apply F; now left). assert (D x') by (apply F; now right). rewrite <- !H3; auto.
    + apply IH. intros y Hy. apply F. now right.
Qed.
Lemma transversal_dom A (E : A -> A -> Prop) (D D' : A -> Prop) l : (forall x, D x <-> D' x) -> transversal E D l -> transversal E D' l.
Proof.
  intros H (F & C & P). rewrite Forall_forall in F. split; [apply Forall_forall; intros x Hx; apply H; auto|]. split; [|exact P]. intros x Dx. apply C. now apply H.
Qed.

(** *** exchange of species *)
Lemma exchange_inv u v z : exchange u v (exchange u v z) = z.
Proof.
  unfold exchange. destruct (Z.eqb_spec z u) as [-> |A].
  - destruct (Z.eqb_spec v u) as [-> |B]; [reflexivity|]. now rewrite Z.eqb_refl.
  - destruct (Z.eqb_spec z v) as [-> |B]; [now rewrite Z.eqb_refl|]. apply Z.eqb_neq in A, B. now rewrite A, B.
Qed.
Lemma exchange_map_inv u v l : map (exchange u v) (map (exchange u v) l) = l.
Proof. rewrite map_map. rewrite <- (map_id l) at 2. apply map_ext. intros. apply exchange_inv. Qed.
Lemma reordered_map1 A B (f : A -> B) x p y : reordered x p y -> reordered (map f x) p (map f y).
Proof. unfold reordered. induction 1 as [|i a p y H F IH]; cbn; constructor; auto. rewrite nth_error_map, H. reflexivity. Qed.
Lemma equivalent_map A B (f : A -> B) G x y : equivalent G x y -> equivalent G (map f x) (map f y).
Proof. intros (p & Hp & R). exists p. split; [exact Hp|]. now apply reordered_map1. Qed.
Lemma equivalent_exchange G u v x y : equivalent G x y <-> equivalent G (map (exchange u v) x) (map (exchange u v) y).
Proof. split; [apply equivalent_map|]. intros H. apply (equivalent_map (exchange u v)) in H. now rewrite !exchange_map_inv in H. Qed.
Lemma exchange_l u v : exchange u v u = v.
Proof. unfold exchange. now rewrite Z.eqb_refl. Qed.
Lemma exchange_r u v : exchange u v v = u.
Proof. unfold exchange. rewrite Z.eqb_refl. destruct (Z.eqb_spec v u); auto. Qed.
Lemma exchange_n u v z : z <> u -> z <> v -> exchange u v z = z.
Proof. unfold exchange. intros. destruct (Z.eqb_spec z u), (Z.eqb_spec z v); congruence. Qed.

Lemma kfold_exchange init P k u v x : ~ In u init -> ~ In v init -> k_fold init P k u x -> k_fold init P k v (map (exchange u v) x).
Proof.
  intros Hu Hv (S & HS & L & H). exists S. split; [exact HS|]. split; [now rewrite map_length|]. intros i a Ha. destruct (H i a Ha) as [H1 H2]. split; intros Hi.
  - rewrite nth_error_map, (H1 Hi). cbn. now rewrite exchange_l.
  - rewrite nth_error_map, (H2 Hi). cbn. f_equal. apply nth_error_In in Ha. apply exchange_n; congruence.
Qed.

(** *** complements *)
Definition sites_with (x : list Z) (v : Z) : list nat := filter (fun i => match nth_error x i with Some a => Z.eqb a v | None => false end) (seq 0 (length x)).
Lemma sites_with_In x v i : In i (sites_with x v) <-> nth_error x i = Some v.
Proof.
  unfold sites_with. rewrite filter_In, in_seq. split.
  - intros [_ H]. destruct (nth_error x i); [|discriminate]. apply Z.eqb_eq in H. now subst.
  - intros H. rewrite H, Z.eqb_refl. split; [|reflexivity]. assert (i < length x) by (apply nth_error_Some; congruence). lia.
Qed.
Lemma sites_with_NoDup x v : NoDup (sites_with x v).
Proof. apply NoDup_filter, seq_NoDup. Qed.
Lemma sites_count x e v : e <> v -> Forall (fun a => a = e \/ a = v) x -> length (sites_with x v) + length (sites_with x e) = length x.
Proof.
  intros N F. unfold sites_with. rewrite <- (seq_length (length x) 0) at 3. rewrite Forall_forall in F.
  assert (HS : forall i, In i (seq 0 (length x)) -> i < length x) by (intros i Hi; apply in_seq in Hi; lia).
  induction (seq 0 (length x)) as [|i s IH]; [reflexivity|]. cbn [filter]. assert (Li : i < length x) by (apply HS; now left).
  destruct (nth_error x i) as [a|] eqn:E; [|apply nth_error_None in E; lia].
  specialize (IH (fun j Hj => HS j (or_intror Hj))). destruct (F a (nth_error_In _ _ E)) as [-> | ->].
  - rewrite Z.eqb_refl. destruct (Z.eqb_spec e v); [congruence|]. cbn. lia.
  - rewrite Z.eqb_refl. destruct (Z.eqb_spec v e); [congruence|]. cbn. lia.
Qed.
Lemma kfold_pure e n k v x : e <> v -> k_fold (repeat e n) (any_site (repeat e n)) k v x <->
  length x = n /\ Forall (fun a => a = e \/ a = v) x /\ length (sites_with x v) = k.
Proof.
  intros N. split.
  - intros (S & (ND & LS & HS) & L & H). rewrite repeat_length in L. split; [exact L|].
    assert (V : forall i a, nth_error x i = Some a -> (a = v <-> In i S) /\ (a = e \/ a = v)).
    { intros i a Ha. assert (Li : i < n) by (rewrite <- L; apply nth_error_Some; congruence).
      destruct (H i e) as [H1 H2]; [rewrite nth_error_repeat; auto|]. destruct (in_dec Nat.eq_dec i S) as [I|I].
      - rewrite (H1 I) in Ha. injection Ha as <-. tauto.
      - rewrite (H2 I) in Ha. injection Ha as <-. split; [split; [congruence|tauto]|now left]. }
    split.
    + apply Forall_forall. intros a Ha. destruct (In_nth_error _ _ Ha) as [i Hi]. apply (V i a Hi).
    + rewrite <- LS. apply Nat.le_antisymm; apply NoDup_incl_length; auto using sites_with_NoDup.
      * intros i Hi. apply sites_with_In in Hi. now apply (V i v Hi).
      * intros i Hi. apply sites_with_In. destruct (H i e) as [H1 _]; [|auto]. rewrite nth_error_repeat; [reflexivity|]. specialize (HS i Hi). unfold any_site in HS. now rewrite repeat_length in HS.
  - intros (L & F & K). exists (sites_with x v). split; [split; [apply sites_with_NoDup|split; [exact K|]]|].
    + intros i Hi. apply sites_with_In in Hi. unfold any_site. rewrite repeat_length, <- L. apply nth_error_Some. congruence.
    + split; [now rewrite repeat_length|]. intros i a Ha. assert (Li : i < n) by (rewrite <- (repeat_length e n); apply nth_error_Some; congruence).
      rewrite nth_error_repeat in Ha by exact Li. injection Ha as <-. rewrite sites_with_In. split; [tauto|]. intros Hn.
      destruct (nth_error x i) as [a|] eqn:E; [|apply nth_error_None in E; lia]. rewrite Forall_forall in F. destruct (F a (nth_error_In _ _ E)); congruence.
Qed.
Lemma sites_with_exchange x u v w : sites_with (map (exchange u v) x) (exchange u v w) = sites_with x w.
Proof.
  unfold sites_with. rewrite map_length. apply filter_ext. intros i. rewrite nth_error_map. destruct (nth_error x i) as [a|]; [|reflexivity]. cbn.
  destruct (Z.eqb_spec a w) as [-> |K]; [apply Z.eqb_refl|]. apply Z.eqb_neq. intros X. apply K. rewrite <- (exchange_inv u v a), X. apply exchange_inv.
Qed.
Lemma kfold_complement e n k v x : e <> v -> k <= n -> k_fold (repeat e n) (any_site (repeat e n)) k v x ->
  k_fold (repeat e n) (any_site (repeat e n)) (n - k) v (map (exchange e v) x).
Proof.
  intros N K. rewrite !kfold_pure by exact N. intros (L & F & C). split; [now rewrite map_length|]. split.
  - apply Forall_forall. intros a Ha. apply in_map_iff in Ha. destruct Ha as (b & <- & Hb). rewrite Forall_forall in F. destruct (F b Hb) as [-> | ->]; [right; apply exchange_l|left; apply exchange_r].
  - rewrite <- (exchange_l e v) at 2. rewrite sites_with_exchange. pose proof (sites_count N F). lia.
Qed.
