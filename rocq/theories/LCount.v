(** Counting superlattices and their classes. *)
From Verif Require Import Base LBase BaseQ SLattice MHnf LHnf LMat3 LCrystal LSuper SBurn LBurn SSym SCount LDeriv2 LShape2.
Set Implicit Arguments.
Unset Strict Implicit.
Open Scope Z_scope.

Lemma divisors_in n d : 0 < n -> In d (divisors n) <-> 1 <= d /\ (d | n).
Proof.
  intros N. unfold divisors. rewrite filter_In, in_map_iff. split.
  - intros [(k & <- & K) M]. apply in_seq in K. apply Z.eqb_eq in M. split; [lia|]. apply Z.mod_divide; [lia|exact M].
  - intros [D V]. assert (d <= n) by (apply Z.divide_pos_le; [lia|exact V]). split.
    + exists (Z.to_nat d). split; [lia|]. apply in_seq. lia.
    + apply Z.eqb_eq. apply Z.mod_divide; [lia|exact V].
Qed.
Lemma divisors_NoDup n : NoDup (divisors n).
Proof. unfold divisors. apply NoDup_filter. apply FinFun.Injective_map_NoDup; [intros a b; lia|apply seq_NoDup]. Qed.

Lemma length_flat_map A B (f : A -> list B) l : Z.of_nat (length (flat_map f l)) = zsum (map (fun a => Z.of_nat (length (f a))) l).
Proof. induction l as [|a l IH]; [reflexivity|]. cbn [flat_map map zsum fold_right]. rewrite app_length, Nat2Z.inj_add, IH. reflexivity. Qed.
Lemma zsum_const A (l : list A) c : zsum (map (fun _ => c) l) = Z.of_nat (length l) * c.
Proof. induction l as [|a l IH]; [reflexivity|]. cbn [map zsum fold_right length]. unfold zsum in IH. rewrite IH. lia. Qed.
Lemma zsum_scale l c : zsum (map (fun x => c * x) l) = c * zsum l.
Proof. induction l as [|a l IH]; cbn; [lia|]. unfold zsum in IH. rewrite IH. lia. Qed.
Lemma zsum_ext A (f g : A -> Z) l : (forall a, In a l -> f a = g a) -> zsum (map f l) = zsum (map g l).
Proof. intros H. f_equal. now apply map_ext_in. Qed.
Lemma length_zrange n : 0 <= n -> Z.of_nat (length (zrange n)) = n.
Proof. intros N. unfold zrange. rewrite map_length, seq_length. lia. Qed.

Definition forms (n : Z) : list (mat Z) :=
  flat_map (fun d => flat_map (fun f => flat_map (fun b => flat_map (fun x => map (fun e =>
    V3 (V3 (n / d) b x) (V3 0 (d / f) e) (V3 0 0 f)) (zrange f)) (zrange f)) (zrange (d / f))) (divisors d)) (divisors n).
Lemma NoDup_fm A B (f : A -> list B) l : NoDup l -> (forall a, In a l -> NoDup (f a)) -> (forall a b y, In a l -> In b l -> In y (f a) -> In y (f b) -> a = b) -> NoDup (flat_map f l).
Proof.
  induction l as [|a l IH]; intros N F D; [constructor|]. cbn. inversion N; subst. apply NoDup_app_disj; [apply F; now left|apply IH; auto; intros; [apply F; now right|eapply D; eauto; now right]|].
  intros y Y Y'. apply in_flat_map in Y' as (b & B' & Y'). assert (a = b) by (apply (D a b y); auto; [now left|now right]). now subst.
Qed.
Lemma forms_spec n : 0 < n -> lists_once (is_hnf n) (forms n).
Proof.
  intros N. split.
  - unfold forms. apply NoDup_fm; [apply divisors_NoDup| |].
    + intros d Hd. apply NoDup_fm; [apply divisors_NoDup| |].
      * intros f _. apply NoDup_fm; [apply NoDup_zrange| |].
        -- intros b _. apply NoDup_fm; [apply NoDup_zrange| |].
           ++ intros x _. apply FinFun.Injective_map_NoDup; [intros e e' E; now injection E|apply NoDup_zrange].
           ++ intros x x' y _ _ Y Y'. apply in_map_iff in Y as (e & <- & _). apply in_map_iff in Y' as (e' & E & _). now injection E.
        -- intros b b' y _ _ Y Y'. apply in_flat_map in Y as (x & _ & Y). apply in_flat_map in Y' as (x' & _ & Y').
           apply in_map_iff in Y as (e & <- & _). apply in_map_iff in Y' as (e' & E & _). now injection E.
      * intros f f' y _ _ Y Y'. apply in_flat_map in Y as (b & _ & Y). apply in_flat_map in Y' as (b' & _ & Y').
        apply in_flat_map in Y as (x & _ & Y). apply in_flat_map in Y' as (x' & _ & Y').
        apply in_map_iff in Y as (e & <- & _). apply in_map_iff in Y' as (e' & E & _). now injection E.
    + intros d d' y Hd Hd' Y Y'. apply in_flat_map in Y as (f & Hf & Y). apply in_flat_map in Y' as (f' & Hf' & Y').
      apply in_flat_map in Y as (b & _ & Y). apply in_flat_map in Y' as (b' & _ & Y').
      apply in_flat_map in Y as (x & _ & Y). apply in_flat_map in Y' as (x' & _ & Y').
      apply in_map_iff in Y as (e & <- & _). apply in_map_iff in Y' as (e' & E & _). injection E as E1 _ _ E2 _ E3. subst f'.
      apply divisors_in in Hd as [D1 (k & D2)]; [|exact N]. apply divisors_in in Hd' as [D1' (k' & D2')]; [|exact N].
      rewrite D2 in E1 at 2. rewrite D2' in E1 at 1. rewrite !Z.div_mul in E1 by lia. subst k'. nia.
  - intros h. unfold forms. split.
    + intros H. apply in_flat_map in H as (d & Hd & H). apply in_flat_map in H as (f & Hf & H). apply in_flat_map in H as (b & Hb & H).
      apply in_flat_map in H as (x & Hx & H). apply in_map_iff in H as (e & <- & He).
      apply divisors_in in Hd as [D1 (k & D2)]; [|exact N]. assert (D0 : 0 < d) by lia. apply divisors_in in Hf as [F1 (l & F2)]; [|exact D0].
      apply In_zrange in Hb, Hx, He. rewrite D2 in *. rewrite F2 in Hb. rewrite Z.div_mul in * by lia. subst d.
      rewrite (Z.div_mul l f) in * by lia. exists k, b, l, x, e, f. split; [reflexivity|]. assert (0 < l) by nia. assert (0 < k) by nia. repeat split; try lia; nia.
    + intros (a & b & c & x & e & f & -> & A & C & F & E & B & X & EE).
      apply in_flat_map. exists (c * f). split; [apply divisors_in; [exact N|]; split; [nia|]; exists a; lia|].
      apply in_flat_map. exists f. split; [apply divisors_in; [nia|]; split; [lia|]; exists c; lia|].
      rewrite Z.div_mul by lia. replace (n / (c * f)) with a by (rewrite <- E, <- Z.mul_assoc, Z.div_mul by nia; reflexivity).
      apply in_flat_map. exists b. split; [now apply In_zrange|]. apply in_flat_map. exists x. split; [now apply In_zrange|].
      apply in_map_iff. exists e. split; [reflexivity|now apply In_zrange].
Qed.
Lemma forms_length n : 0 < n -> Z.of_nat (length (forms n)) = zsum (map (fun d => d * sigma d) (divisors n)).
Proof.
  intros N. unfold forms. rewrite length_flat_map. apply zsum_ext. intros d Hd. apply divisors_in in Hd as [D1 D2]; [|exact N].
  rewrite length_flat_map. unfold sigma. rewrite <- zsum_scale. apply zsum_ext. intros f Hf. apply divisors_in in Hf as [F1 (l & F2)]; [|lia].
  rewrite F2, Z.div_mul by lia. rewrite length_flat_map.
  rewrite (@zsum_ext _ _ (fun _ => f * f)); [rewrite zsum_const, length_zrange by nia; lia|].
  intros b _. rewrite length_flat_map. rewrite (@zsum_ext _ _ (fun _ => f)); [rewrite zsum_const, length_zrange by lia; lia|].
  intros x _. rewrite map_length, length_zrange; lia.
Qed.
Definition forms2 (n : Z) : list (mat Z) := flat_map (fun c => map (fun b => V3 (V3 (n / c) b 0) (V3 0 c 0) (V3 0 0 1)) (zrange c)) (divisors n).
Lemma forms2_spec n : 0 < n -> lists_once (is_hnf2 n) (forms2 n).
Proof.
  intros N. split.
  - apply NoDup_fm; [apply divisors_NoDup| |].
    + intros c _. apply FinFun.Injective_map_NoDup; [intros e e' E; now injection E|apply NoDup_zrange].
    + intros c c' y _ _ Y Y'. apply in_map_iff in Y as (e & <- & _). apply in_map_iff in Y' as (e' & E & _). now injection E.
  - intros h. unfold forms2. split.
    + intros H. apply in_flat_map in H as (c & Hc & H). apply in_map_iff in H as (b & <- & Hb). apply In_zrange in Hb.
      apply divisors_in in Hc as [C1 (k & C2)]; [|exact N]. rewrite C2, Z.div_mul by lia. exists k, b, c. assert (0 < k) by nia. repeat split; lia.
    + intros (a & b & c & -> & A & C & E & B). apply in_flat_map. exists c. split; [apply divisors_in; [exact N|]; split; [lia|]; exists a; lia|].
      apply in_map_iff. exists b. split; [|now apply In_zrange]. rewrite <- E, Z.div_mul by lia. reflexivity.
Qed.
Lemma forms2_length n : 0 < n -> Z.of_nat (length (forms2 n)) = sigma n.
Proof.
  intros N. unfold forms2, sigma. rewrite length_flat_map. rewrite <- (map_id (divisors n)) at 2. apply zsum_ext. intros c Hc.
  apply divisors_in in Hc as [C1 _]; [|exact N]. rewrite map_length, length_zrange; lia.
Qed.

Lemma F2_length A B (R : A -> B -> Prop) l l' : Forall2 R l l' -> length l = length l'.
Proof. induction 1; cbn; congruence. Qed.

(** Burnside's lemma for a relational action. *)
Section Act.
Context (A X : Type) (mul : A -> A -> A) (act : A -> X -> X -> Prop) (G : list A) (Ds out : list X).
Hypothesis NG : NoDup G.
Hypothesis ND : NoDup Ds.
Hypothesis NO : NoDup out.
Hypothesis MG : forall a b, In a G -> In b G -> In (mul a b) G.
Hypothesis INV : forall a, In a G -> exists b, In b G /\ (forall c, mul (mul c b) a = c) /\ (forall c, mul (mul c a) b = c) /\ forall x y, act a x y -> act b y x.
Hypothesis AM : forall a b x y z, act a x y -> act b y z -> act (mul b a) x z.
Hypothesis AF : forall a x y y', In y Ds -> In y' Ds -> act a x y -> act a x y' -> y = y'.
Hypothesis AT : forall a x, In a G -> In x Ds -> exists y, In y Ds /\ act a x y.
Hypothesis OI : incl out Ds.
Hypothesis OX : forall x, In x Ds -> exists o a, In o out /\ In a G /\ act a o x.
Hypothesis OU : forall o o' a b x, In o out -> In o' out -> In a G -> In b G -> act a o x -> act b o' x -> o = o'.
Lemma act_burnside : exists Fs, lists_once (fun f => In (fst f) G /\ In (snd f) Ds /\ act (fst f) (snd f) (snd f)) Fs /\ (length G * length out = length Fs)%nat.
Proof.
  destruct (@finite_choice X (A * X) (fun x to => In (fst to) G /\ In (snd to) out /\ act (fst to) (snd to) x) Ds) as (Ts & FT).
  { intros x Hx. destruct (OX Hx) as (o & a & Ho & Ha & E). now exists (a, o). }
  set (TT := fun x t o => exists i, nth_error Ds i = Some x /\ nth_error Ts i = Some (t, o)).
  assert (T1 : forall x, In x Ds -> exists t o, TT x t o).
  { intros x Hx. apply In_nth_error in Hx as (i & Hi). destruct (nth_error Ts i) as [[t o]|] eqn:E; [exists t, o, i; auto|].
    apply nth_error_None in E. rewrite <- (F2_length FT) in E. apply nth_error_None in E. congruence. }
  assert (T2 : forall x t o, TT x t o -> In t G /\ In o out /\ act t o x).
  { intros x t o (i & Hi & Ti). revert i Hi Ti. clear - FT. induction FT as [|y to l l' H F IH]; intros [|i] Hi Ti; cbn in *; try discriminate; [|eauto]. injection Hi as <-. injection Ti as ->. exact H. }
  assert (T3 : forall x t o t' o', TT x t o -> TT x t' o' -> t = t' /\ o = o').
  { intros x t o t' o' (i & Hi & Ti) (j & Hj & Tj). assert (i = j). { apply (proj1 (NoDup_nth_error Ds) ND); [apply nth_error_Some; congruence|congruence]. }
    subst j. rewrite Ti in Tj. now injection Tj. }
  set (R := fun (go : A * X) (sx : A * X) => In (fst sx) G /\ In (snd sx) Ds /\ act (fst go) (snd go) (snd sx) /\ exists t, TT (snd sx) t (snd go) /\ mul (fst sx) t = fst go).
  destruct (@finite_choice (A * X) (A * X) R (list_prod G out)) as (Fs & FF).
  { intros [g o] I. apply in_prod_iff in I as [Hg Ho]. destruct (AT Hg (OI Ho)) as (x & Hx & E). destruct (T1 x Hx) as (t & o' & T). destruct (T2 x t o' T) as (Ht & Ho' & E').
    assert (o' = o) by (eapply OU; [exact Ho'|exact Ho|exact Ht|exact Hg|exact E'|exact E]). subst o'.
    destruct (INV Ht) as (t' & Ht' & C1 & C2 & _). exists (mul g t', x). split; [now apply MG|]. split; [exact Hx|]. split; [exact E|]. exists t. split; [exact T|apply C1]. }
  assert (RF : forall go f f', R go f -> R go f' -> f = f').
  { intros [g o] [s x] [s' x'] (_ & H1 & H2 & t & H3 & H4) (_ & H1' & H2' & t' & H3' & H4'). cbn [fst snd] in *. assert (x = x') by (eapply AF; [exact H1|exact H1'|exact H2|exact H2']). subst x'.
    destruct (T3 _ _ _ _ _ H3 H3') as [<- _]. f_equal. destruct (T2 _ _ _ H3) as (Ht & _). destruct (INV Ht) as (t'' & _ & _ & C2 & _).
    rewrite <- (C2 s), <- (C2 s'). congruence. }
  assert (RI : forall go go' f, R go f -> R go' f -> go = go').
  { intros [g o] [g' o'] [s x] (_ & _ & _ & t & H3 & H4) (_ & _ & _ & t' & H3' & H4'). cbn [fst snd] in *. destruct (T3 _ _ _ _ _ H3 H3') as [<- <-]. congruence. }
  exists Fs. split; [|rewrite <- (F2_length FF); symmetry; apply prod_length]. split.
  - assert (NP : NoDup (list_prod G out)) by now apply NoDup_prod. revert NP FF. generalize (list_prod G out). clear - RI. intros l NP FF.
    induction FF as [|go f l l' H F IH]; [constructor|]. inversion NP; subst. constructor; [|auto]. intros I. apply H2.
    clear - F I H RI. induction F as [|go' f' l l' H' F IH]; [destruct I|]. destruct I as [->|I]; [left; exact (RI _ _ _ H' H)|right; auto].
  - intros [s x]. split.
    + intros I. assert (K : exists go, In go (list_prod G out) /\ R go (s, x)).
      { clear - FF I. induction FF as [|go f l l' H F IH]; [destruct I|]. destruct I as [->|I]; [exists go; split; [now left|exact H]|]. destruct (IH I) as (g & ? & ?). exists g. split; [now right|assumption]. }
      destruct K as ([g o] & _ & (H0 & H1 & H2 & t & H3 & H4)). cbn [fst snd] in *. split; [exact H0|]. split; [exact H1|].
      destruct (T2 _ _ _ H3) as (Ht & _ & E). destruct (INV Ht) as (t' & _ & _ & C2 & V). rewrite <- (C2 s), H4. eapply AM; [apply V; exact E|exact H2].
    + cbn [fst snd]. intros (Hs & Hx & E). destruct (T1 x Hx) as (t & o & T). destruct (T2 _ _ _ T) as (Ht & Ho & E').
      assert (K : R (mul s t, o) (s, x)) by (split; [exact Hs|]; split; [exact Hx|]; split; [cbn [fst snd]; eapply AM; [exact E'|exact E]|]; exists t; auto).
      assert (I : In (mul s t, o) (list_prod G out)) by (apply in_prod; [now apply MG|exact Ho]).
      clear - FF I K RF. induction FF as [|go f l l' H F IH]; [destruct I|]. destruct I as [->|I]; [left; exact (RF _ _ _ H K)|right; auto].
Qed.
End Act.

(** The point group acts on the superlattices. *)
Lemma zrot_mul a b v : zrot (zmul a b) v = zrot a (zrot b v).
Proof. destruct a as [[? ? ?] [? ? ?] [? ? ?]], b as [[? ? ?] [? ? ?] [? ? ?]], v. unfold zrot, zmul, zdot, zcomb, zvadd, zvscale. cbn. f_equal; ring. Qed.
Lemma zrot_ext a b : (forall v, zrot a v = zrot b v) -> a = b.
Proof.
  intros H. pose proof (H (V3 1 0 0)) as H1. pose proof (H (V3 0 1 0)) as H2. pose proof (H (V3 0 0 1)) as H3. clear H.
  destruct a as [[? ? ?] [? ? ?] [? ? ?]], b as [[? ? ?] [? ? ?] [? ? ?]]. unfold zrot, zdot in *. cbn in *. injection H1. injection H2. injection H3. intros. f_equal; f_equal; lia.
Qed.
Section Rots.
Context (rots : list (mat Z)) (n : Z) (D : mat Z -> Prop) (Ds out : list (mat Z)).
Hypothesis RG : rot_group rots.
Hypothesis N : 0 < n.
Hypothesis DO : lists_once D Ds.
Hypothesis DH : forall h, D h -> is_hnf n h.
Hypothesis DC : forall r h m, In r rots -> D h -> rot_carries r h m -> zdet m <> 0 -> exists h', D h' /\ same_lattice m h'.
Hypothesis OD : Forall D out.
Hypothesis OX : forall x, D x -> exists y, In y out /\ lat_equiv rots x y.
Hypothesis OU : ForallOrdPairs (fun a b => ~ lat_equiv rots a b /\ ~ lat_equiv rots b a) out.
Lemma lattices_burnside : lattice_count rots D (length out).
Proof.
  assert (ED : forall a b : mat Z, {a = b} + {a <> b}) by (repeat decide equality). set (Gs := nodup ED rots).
  assert (GI : forall r, In r Gs <-> In r rots) by (intros r; apply nodup_In).
  assert (OG : lists_once (fun r => In r rots) Gs) by (split; [apply NoDup_nodup|exact GI]).
  assert (U : forall x y, In x out -> In y out -> lat_equiv rots x y -> x = y).
  { intros x y X Y E. apply In_nth_error in X as (i & X), Y as (j & Y). pose proof (proj1 (LShape2.FOP_nth _ _) OU) as Q.
    destruct (Nat.lt_trichotomy i j) as [H|[H|H]].
    - destruct (Q i j x y H X Y) as [K _]. contradiction.
    - congruence.
    - destruct (Q j i y x H Y X) as [_ K]. contradiction. }
  destruct (@act_burnside (mat Z) (mat Z) zmul rot_carries Gs Ds out) as (Fs & [NF IF] & L).
  - apply NoDup_nodup.
  - apply DO.
  - clear - OU RG. induction OU as [|x l H F IH]; constructor; [|auto]. intros I. rewrite Forall_forall in H. destruct (H x I) as [K _]. apply K. now apply lat_equiv_refl.
  - intros a b Ha Hb. apply GI in Ha, Hb. apply GI. destruct RG as (_ & _ & C & _). destruct (C a b Ha Hb) as (t & Ht & E). replace (zmul a b) with t; [exact Ht|].
    apply zrot_ext. intros v. now rewrite E, zrot_mul.
  - intros a Ha. apply GI in Ha. destruct RG as (UM & _ & C & I). destruct (I a Ha) as (b & Hb & E). exists b. split; [now apply GI|].
    assert (E2 : forall v, zrot a (zrot b v) = v).
    { intros v. destruct (I b Hb) as (c & Hc & E'). rewrite <- (E' (zrot a (zrot b v))), E. apply E'. }
    split; [|split].
    + intros c. apply zrot_ext. intros v. now rewrite !zrot_mul, E.
    + intros c. apply zrot_ext. intros v. now rewrite !zrot_mul, E2.
    + intros x y [K1 K2]. split.
      * intros v Hv. destruct (K2 v Hv) as (w & Hw & ->). now rewrite E.
      * intros w Hw. exists (zrot a w). split; [now apply K1|now rewrite E].
  - intros a b x y z [K1 K2] [K3 K4]. split.
    + intros v Hv. rewrite zrot_mul. auto.
    + intros w Hw. destruct (K4 w Hw) as (w' & Hw' & ->). destruct (K2 w' Hw') as (v & Hv & ->). exists v. split; [exact Hv|now rewrite zrot_mul].
  - intros a x y y' Hy Hy' K K'. apply DO in Hy, Hy'. apply carries_same in K, K'. eapply hnf_unique; [apply DH; exact Hy|apply DH; exact Hy'|].
    intros v. rewrite <- (K v). apply K'.
  - intros a x Ha Hx. apply GI in Ha. apply DO in Hx.
    assert (K : rot_carries a x (zmul x (transpose a))) by (apply carries_same; intros v; reflexivity).
    destruct (DC Ha Hx K) as (h' & Hh & S).
    { rewrite zdet_mul. destruct RG as (UM & _). pose proof (UM a Ha) as UA. pose proof (hnf_det (DH Hx)). rewrite zdet_transpose. destruct UA; nia. }
    exists h'. split; [now apply DO|]. apply carries_same. exact S.
  - intros x Hx. rewrite Forall_forall in OD. apply DO. auto.
  - intros x Hx. apply DO in Hx. destruct (OX Hx) as (y & Hy & E). destruct (lat_equiv_sym RG E) as (r & Hr & E'). exists y, r. split; [exact Hy|]. split; [now apply GI|exact E'].
  - intros o o' a b x Ho Ho' Ha Hb E E'. apply U; auto.
    assert (L1 : lat_equiv rots o x) by (exists a; split; [now apply GI|exact E]). assert (L2 : lat_equiv rots o' x) by (exists b; split; [now apply GI|exact E']).
    exact (lat_equiv_trans RG L1 (lat_equiv_sym RG L2)).
  - exists Gs, Fs. split; [exact OG|]. split; [|exact L]. split; [exact NF|]. intros f. rewrite IF. unfold fixed_lattice. rewrite GI. destruct DO as [_ Q]. rewrite Q. reflexivity.
Qed.
End Rots.
