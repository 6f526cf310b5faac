(** Enumerations carried out one species after the other. *)
From Coq Require Import String.
From Verif Require Import Base LBase BaseQ MGeneralCell SGeneralCell LGeneralCell MComb SSubst SSym MSogen LFilter SOcc SEnum LDup LLevels LMisc LSym LSymDec LSogen SRobust LRobust SChoice LChoice LFrame LCli3 SSteps.
Set Implicit Arguments.
Unset Strict Implicit.
Open Scope list_scope.
Open Scope nat_scope.
Notation length := List.length.

(** *** transversals in two steps *)
Lemma FOP_flat A B (R : A -> A -> Prop) (R' : B -> B -> Prop) (f : A -> list B) l :
  (forall x, In x l -> ForallOrdPairs R' (f x)) -> (forall x y a b, In x l -> In y l -> R x y -> In a (f x) -> In b (f y) -> R' a b) ->
  ForallOrdPairs R l -> ForallOrdPairs R' (flat_map f l).
Proof.
  intros H1 H2 F. induction F as [|x l HX F IH]; cbn [flat_map]; [constructor|]. apply FOP_app.
  - apply H1. now left.
  - apply IH; [intros y Hy; apply H1; now right|]. intros y z a b Hy Hz. apply H2; now right.
  - intros a b Ha Hb. apply in_flat_map in Hb. destruct Hb as (y & Hy & Hb). rewrite Forall_forall in HX. apply (H2 x y); auto; [now left|now right].
Qed.

Section TwoSteps.
Variables (A O : Type) (act : O -> A -> A -> Prop) (G : O -> Prop) (D1 : A -> Prop) (D2 : A -> A -> Prop).
Definition rel (K : O -> Prop) (x y : A) : Prop := exists o, K o /\ act o x y.
Definition fixing (y : A) (o : O) : Prop := G o /\ act o y y.
Hypothesis moves_down : forall y x o x', D1 y -> D2 y x -> G o -> act o x x' -> exists y', act o y y' /\ D1 y' /\ D2 y' x'.
Hypothesis moves_up : forall y x o y', D1 y -> D2 y x -> G o -> act o y y' -> exists x', act o x x' /\ D2 y' x'.
Hypothesis below : forall y y' x, D1 y -> D1 y' -> D2 y x -> D2 y' x -> y = y'.
Hypothesis trans : forall y x z w, D1 y -> D2 y x -> rel G x z -> rel G z w -> rel G x w.

Lemma two_steps ys zs : transversal (rel G) D1 ys -> (forall y, In y ys -> transversal (rel (fixing y)) (D2 y) (zs y)) ->
  transversal (rel G) (fun x => exists y, D1 y /\ D2 y x) (flat_map zs ys).
Proof.
  intros (F & C & P) Z. rewrite Forall_forall in F. split; [|split].
  - apply Forall_forall. intros x Hx. apply in_flat_map in Hx. destruct Hx as (y & Hy & Hx). exists y. split; [auto|].
    destruct (Z y Hy) as (FZ & _). rewrite Forall_forall in FZ. auto.
  - intros x (y & Dy & Dx). destruct (C y Dy) as (y' & Hy' & o & Go & Ay). destruct (moves_up Dy Dx Go Ay) as (x' & Ax & Dx').
    destruct (Z y' Hy') as (_ & CZ & _). destruct (CZ x' Dx') as (z & Hz & o' & (Go' & _) & Az).
    exists z. split; [apply in_flat_map; eauto|]. apply (trans Dy Dx (z := x')); [now exists o|now exists o'].
  - apply (@FOP_flat _ _ (fun a b => ~ rel G a b /\ ~ rel G b a)); [| |exact P].
    + intros y Hy. destruct (Z y Hy) as (FZ & _ & PZ). rewrite Forall_forall in FZ.
      assert (K : forall a b, In a (zs y) -> In b (zs y) -> rel G a b -> rel (fixing y) a b).
      { intros a b Ha Hb (o & Go & Ao). destruct (moves_down (F y Hy) (FZ a Ha) Go Ao) as (y' & Ay & Dy' & Db).
        assert (y = y') by (apply (below (F y Hy) Dy' (FZ b Hb) Db)). subst y'. exists o. split; [split|]; auto. }
      clear FZ. revert K. induction PZ as [|a l Ha PZ IH]; intros K; constructor; [|apply IH; intros; apply K; auto; now right].
      rewrite Forall_forall in *. intros b Hb. destruct (Ha b Hb). split; intros X; [apply H|apply H0]; apply K; auto; (now left) || now right.
    + assert (K : forall x y a b, In x ys -> In y ys -> In a (zs x) -> In b (zs y) -> rel G a b -> rel G x y).
      { intros x y a b Hx Hy Ha Hb (o & Go & Ao). destruct (Z x Hx) as (FX & _). destruct (Z y Hy) as (FY & _). rewrite Forall_forall in FX, FY.
        destruct (moves_down (F x Hx) (FX a Ha) Go Ao) as (y' & Ay & Dy' & Db). assert (y = y') by (apply (below (F y Hy) Dy' (FY b Hb) Db)). subst y'. now exists o. }
      intros x y a b Hx Hy [N1 N2] Ha Hb. split; intros X; [apply N1|apply N2]; eauto.
Qed.
End TwoSteps.

(** *** compositions *)
Definition put_back (ele : Z) (vs : list Z) (x : list Z) : list Z := map (fun a => if in_dec Z.eq_dec a vs then ele else a) x.

Lemma composed_back init ele steps x : (forall s, In s steps -> ~ In (snd s) init) -> composed init ele steps x -> put_back ele (map snd steps) x = init.
Proof.
  intros N (L & H & _). apply list_ext. intros i. unfold put_back. rewrite nth_error_map. destruct (nth_error init i) as [a|] eqn:E.
  - destruct (H i a E) as [-> | (-> & s & Hs & ->)]; cbn; f_equal.
    + destruct (in_dec Z.eq_dec a (map snd steps)) as [I|]; [|reflexivity]. apply in_map_iff in I. destruct I as (s & <- & Hs). destruct (N s Hs). exact (nth_error_In _ _ E).
    + destruct (in_dec Z.eq_dec (snd s) (map snd steps)) as [I|I]; [reflexivity|]. destruct I. now apply in_map.
  - apply nth_error_None in E. rewrite <- L in E. apply nth_error_None in E. now rewrite E.
Qed.
Lemma composed_nil init ele x : composed init ele [] x <-> x = init.
Proof.
  split.
  - intros (L & H & _). apply list_ext. intros i. destruct (nth_error init i) as [a|] eqn:E.
    + destruct (H i a E) as [K|(_ & s & [] & _)]. exact K.
    + apply nth_error_None in E. rewrite <- L in E. now apply nth_error_None.
  - intros ->. split; [reflexivity|]. split; [auto|]. intros s [].
Qed.
Lemma count_sites x v : count_occ Z.eq_dec x v = length (sites_with x v).
Proof.
  unfold sites_with. induction x as [|a x IH] using rev_ind; [reflexivity|].
  rewrite count_occ_app, app_length. cbn [length]. rewrite Nat.add_1_r, seq_S, filter_app, app_length. cbn [Nat.add]. f_equal.
  - rewrite IH. f_equal. apply filter_ext_in. intros i Hi. apply in_seq in Hi. now rewrite nth_error_app1 by lia.
  - cbn [filter]. rewrite nth_error_app2, Nat.sub_diag by lia. cbn. destruct (Z.eq_dec a v) as [-> |N]; [now rewrite Z.eqb_refl|].
    destruct (Z.eqb_spec a v); [contradiction|reflexivity].
Qed.
Lemma kfold_composed init ele n v x : ~ In v init -> k_fold init (site_holds init ele) n v x <-> composed init ele [(n, v)] x.
Proof.
  intros N. split.
  - intros (S & (ND & LS & HS) & L & H). split; [exact L|].
    assert (SW : forall i, nth_error x i = Some v <-> In i S).
    { intros i. split.
      - intros E. destruct (nth_error init i) as [a|] eqn:Ea.
        + destruct (in_dec Nat.eq_dec i S) as [I|I]; [exact I|]. rewrite (proj2 (H i a Ea) I) in E. injection E as ->. destruct N. exact (nth_error_In _ _ Ea).
        + apply nth_error_None in Ea. rewrite <- L in Ea. apply nth_error_None in Ea. congruence.
      - intros I. apply (H i ele (HS i I)). exact I. }
    split.
    + intros i a Ea. destruct (in_dec Nat.eq_dec i S) as [I|I]; [right|left; now apply (H i a Ea)].
      split; [specialize (HS i I); unfold site_holds in HS; congruence|]. exists (n, v). split; [now left|]. now apply SW.
    + intros s [<-|[]]. cbn [fst snd]. rewrite count_sites, <- LS. apply Nat.le_antisymm; apply NoDup_incl_length; auto using sites_with_NoDup; intros i Hi.
      * apply SW. now apply sites_with_In.
      * apply sites_with_In. now apply SW.
  - intros (L & H & C). exists (sites_with x v). split.
    + split; [apply sites_with_NoDup|]. split; [rewrite <- count_sites; apply (C (n, v)); now left|].
      intros i Hi. apply sites_with_In in Hi. destruct (nth_error init i) as [a|] eqn:Ea.
      * destruct (H i a Ea) as [E|(-> & _)]; [|exact Ea]. rewrite E in Hi. injection Hi as ->. destruct N. exact (nth_error_In _ _ Ea).
      * apply nth_error_None in Ea. rewrite <- L in Ea. apply nth_error_None in Ea. congruence.
    + split; [exact L|]. intros i a Ea. rewrite sites_with_In. split; [auto|]. intros NE.
      destruct (H i a Ea) as [E|(_ & s & [<-|[]] & E)]; [exact E|]. contradiction.
Qed.
Lemma count_same x y v : length x = length y -> (forall i, nth_error x i = Some v <-> nth_error y i = Some v) -> count_occ Z.eq_dec x v = count_occ Z.eq_dec y v.
Proof.
  intros L H. rewrite !count_sites. apply Nat.le_antisymm; apply NoDup_incl_length; auto using sites_with_NoDup; intros i Hi; apply sites_with_In, H, sites_with_In, Hi.
Qed.
Lemma nth_same A (x y : list A) i a : length x = length y -> nth_error x i = Some a -> exists b, nth_error y i = Some b.
Proof. intros L E. destruct (nth_error y i) as [b|] eqn:F; [eauto|]. apply nth_error_None in F. rewrite <- L in F. apply nth_error_None in F. congruence. Qed.

Lemma composed_step init ele n v rest x : new_species init ele ((n, v) :: rest) ->
  composed init ele ((n, v) :: rest) x <-> exists y, composed init ele [(n, v)] y /\ composed y ele rest x.
Proof.
  intros [ND NI]. inversion ND as [|? ? N1 N2]; subst. cbn [map snd] in *. inversion N2 as [|? ? N3 N4]; subst.
  assert (Nv : v <> ele) by (intros ->; apply N1; now left).
  assert (Nr : forall s, In s rest -> snd s <> ele /\ snd s <> v).
  { intros s Hs. split; intros E; [apply N1; right; rewrite <- E; now apply in_map|apply N3; rewrite <- E; now apply in_map]. }
  split.
  - intros (L & H & C). set (y := put_back ele (map snd rest) x). exists y.
    assert (LY : length y = length x) by apply map_length.
    assert (NY : forall i a, nth_error x i = Some a -> nth_error y i = Some (if in_dec Z.eq_dec a (map snd rest) then ele else a)) by (intros i a E; unfold y, put_back; now rewrite nth_error_map, E).
    split; [split; [congruence|]; split|split; [congruence|]; split].
    + intros i a E. destruct (H i a E) as [K|(-> & s & [<-|Hs] & K)]; rewrite (NY _ _ K).
      * left. destruct (in_dec Z.eq_dec a (map snd rest)) as [I|]; [|reflexivity]. apply in_map_iff in I. destruct I as (s & <- & Hs). destruct (NI s (or_intror Hs)). exact (nth_error_In _ _ E).
      * right. split; [reflexivity|]. exists (n, v). split; [now left|]. cbn [snd]. destruct (in_dec Z.eq_dec v (map snd rest)); [contradiction|reflexivity].
      * left. destruct (in_dec Z.eq_dec (snd s) (map snd rest)) as [|I]; [reflexivity|]. destruct I. now apply in_map.
    + intros s [<-|[]]. pose proof (C (n, v) (or_introl eq_refl)) as CN. cbn [fst snd] in *. rewrite <- CN. apply count_same; [exact LY|]. intros i. split; intros E.
      * destruct (nth_same LY E) as [a Ea]. rewrite (NY _ _ Ea) in E. destruct (in_dec Z.eq_dec a (map snd rest)); congruence.
      * rewrite (NY _ _ E). destruct (in_dec Z.eq_dec v (map snd rest)); [contradiction|reflexivity].
    + intros i a E. destruct (nth_same LY E) as [b Eb]. rewrite (NY _ _ Eb) in E. destruct (in_dec Z.eq_dec b (map snd rest)) as [I|I]; [right|left; congruence].
      split; [congruence|]. apply in_map_iff in I. destruct I as (s & <- & Hs). eauto.
    + intros s Hs. apply C. now right.
  - intros (y & (L & H & C) & (L' & H' & C')). split; [congruence|]. split.
    + intros i a E. destruct (H i a E) as [K|(-> & s & [<-|[]] & K)]; destruct (H' _ _ K) as [K'|(E' & s' & Hs' & K')].
      * now left.
      * right. split; [exact E'|]. exists s'. split; [now right|exact K'].
      * right. split; [reflexivity|]. exists (n, v). split; [now left|exact K'].
      * cbn in E'. congruence.
    + intros s [<-|Hs]; [|auto]. pose proof (C (n, v) (or_introl eq_refl)) as CN. cbn [fst snd] in *. rewrite <- CN. apply count_same; [exact L'|]. intros i. split; intros E.
      * destruct (nth_same L' E) as [a Ea]. destruct (H' i a Ea) as [K|(_ & s & Hs & K)]; [congruence|]. rewrite K in E. injection E as E. now destruct (Nr s Hs).
      * destruct (H' i v E) as [K|(E' & _)]; [exact K|]. contradiction.
Qed.
Lemma composed_new init ele n v rest y : new_species init ele ((n, v) :: rest) -> composed init ele [(n, v)] y -> new_species y ele rest.
Proof.
  intros [ND NI] (L & H & _). cbn [map snd] in ND. inversion ND as [|? ? N1 N2]; subst. inversion N2 as [|? ? N3 N4]; subst. split.
  - cbn. constructor; [|exact N4]. intros I. apply N1. now right.
  - intros s Hs I. destruct (In_nth_error _ _ I) as [i Hi]. destruct (nth_same L Hi) as [a Ea]. destruct (H i a Ea) as [K|(_ & s' & [<-|[]] & K)]; rewrite K in Hi; injection Hi as E.
    + apply (NI s (or_intror Hs)). rewrite <- E. exact (nth_error_In _ _ Ea).
    + cbn in E. apply N3. rewrite E. now apply in_map.
Qed.

(** moving *)
Lemma count_reordered n x p y v : Permutation p (seq 0 n) -> length x = n -> reordered x p y -> count_occ Z.eq_dec y v = count_occ Z.eq_dec x v.
Proof.
  intros P L R. apply (Permutation_count_occ Z.eq_dec). rewrite (LCli3.reordered_map R), P, <- L, LCli3.map_nth_seq. reflexivity.
Qed.
Lemma composed_moved n p init init' ele steps x x' : Permutation p (seq 0 n) -> length init = n -> reordered init p init' -> reordered x p x' ->
  composed init ele steps x -> composed init' ele steps x'.
Proof.
  intros P L RI RX (LX & H & C). split; [now rewrite (reordered_length RX), (reordered_length RI)|]. split.
  - intros i a E. rewrite (reordered_nth i RI) in E. rewrite (reordered_nth i RX). destruct (nth_error p i) as [j|]; [|discriminate]. auto.
  - intros s Hs. rewrite (count_reordered (snd s) P (eq_trans LX L) RX). auto.
Qed.
