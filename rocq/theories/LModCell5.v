(** Lemmas for ModifiedCell: equality and conversion. *)
From Verif Require Import Base LBase BaseQ LQ SElement MElement LElement MGeneralCell LGeneralCell MHnf MRestrict LMat3 MModCell SModCell LModCell LModCell2 LModCell3 LModCell4.
Set Implicit Arguments.
Unset Strict Implicit.
Open Scope list_scope.
Notation length := List.length.

Lemma Qcabs_spec x : (Qcabs x = x /\ 0 <= x \/ Qcabs x = - x /\ x < 0)%Qc.
Proof.
  unfold Qcabs. destruct (Qcltb x 0) eqn:E; [right|left]; split; auto.
  - apply Qcltb_lt. exact E.
  - apply Qcltb_ge. exact E.
Qed.

Lemma close_spec x y : close x y = true <-> np_close x y.
Proof.
  unfold close, np_close. rewrite Qcleb_le. split.
  - intros H. exists (Qcabs (x - y)), (Qcabs y).
    destruct (Qcabs_spec (x - y)) as [[E P]|[E P]], (Qcabs_spec y) as [[F Q]|[F Q]]; rewrite E, F in *;
      (split; [first [left; reflexivity|right; ring]|]); (split; [qclra|]); (split; [auto|]); (split; [qclra|]); exact H.
  - intros (d & ay & D & P & A & Q & H).
    assert (d = Qcabs (x - y)) as ->.
    { destruct (Qcabs_spec (x - y)) as [[E R]|[E R]]; rewrite E; destruct D as [->| ->]; auto.
      - apply Qcle_antisym; qclra.
      - apply Qcle_antisym; qclra.
      - ring. }
    assert (ay = Qcabs y) as ->.
    { destruct (Qcabs_spec y) as [[E R]|[E R]]; rewrite E; destruct A as [->| ->]; auto; apply Qcle_antisym; qclra. }
    exact H.
Qed.
Lemma vclose_spec p q : vclose p q = true <-> vec_close p q.
Proof. unfold vclose, vec_close. rewrite !andb_true_iff, !close_spec. tauto. Qed.
Lemma mclose_spec p q : mclose p q = true <-> lat_close p q.
Proof. unfold mclose, lat_close. rewrite !andb_true_iff, !vclose_spec. tauto. Qed.

Lemma forallb_combine A (cl : A -> A -> bool) (R : A -> A -> Prop) : (forall x y, cl x y = true <-> R x y) ->
  forall a b, length a = length b -> (forallb (fun ab => cl (fst ab) (snd ab)) (combine a b) = true <-> Forall2 R a b).
Proof.
  intros H. induction a as [|x a IH]; intros [|y b] L; cbn in *; try lia.
  - split; auto.
  - rewrite andb_true_iff, IH, H by lia. split; [intros []; constructor; auto|intros K; inversion K; auto].
Qed.

Lemma allclose1_spec A (cl : A -> A -> bool) (R : A -> A -> Prop) a b : (forall x y, cl x y = true <-> R x y) ->
  a <> [] -> b <> [] ->
  (comparable (length a) (length b) /\ exists v, allclose1 cl a b = Ok v /\ (v = true <-> paired R a b)) \/
  (~ comparable (length a) (length b) /\ allclose1 cl a b = Raise ValueError).
Proof.
  intros H NA NB. unfold allclose1, comparable, paired. destruct (Nat.eqb_spec (length a) (length b)) as [E|E].
  - left. split; [auto|]. eexists. split; [reflexivity|]. rewrite (forallb_combine H E). split; [auto|].
    intros [K|[(x & -> & _ & F)|(y & -> & _ & F)]]; auto.
    + destruct b as [|y [|? ?]]; cbn in E; try lia. inversion F; subst. repeat constructor; auto.
    + destruct a as [|x [|? ?]]; cbn in E; try lia. inversion F; subst. repeat constructor; auto.
  - destruct a as [|x [|x2 a]]; [congruence| |].
    + left. destruct b as [|y b]; [congruence|]. split; [cbn; right; left; split; [reflexivity|discriminate]|].
      eexists. split; [reflexivity|]. rewrite forallb_forall. split.
      * intros F. right. left. exists x. split; [reflexivity|]. split; [discriminate|]. apply Forall_forall. intros z Z. apply H. apply F. exact Z.
      * intros [K|[(z & [= ->] & _ & F)|(z & Ez & _ & F)]].
        -- apply Forall2_len in K. congruence.
        -- rewrite Forall_forall in F. intros w Ww. apply H. apply F. exact Ww.
        -- exfalso. rewrite Ez in E. cbn in E. congruence.
    + destruct b as [|y [|y2 b]]; [congruence| |].
      * left. split; [cbn; right; right; split; [reflexivity|discriminate]|]. eexists. split; [reflexivity|]. rewrite forallb_forall. split.
        -- intros F. right. right. exists y. split; [reflexivity|]. split; [discriminate|]. apply Forall_forall. intros z Z. apply H. apply F. exact Z.
        -- intros [K|[(z & [=] & _ & F)|(z & [= ->] & _ & F)]].
           ++ apply Forall2_len in K. cbn in *. lia.
           ++ rewrite Forall_forall in F. intros w Ww. apply H. apply F. exact Ww.
      * right. split; [|reflexivity]. cbn in *. lia.
Qed.

Lemma allclose_pos_spec a b :
  ((a = [] <-> b = []) /\ comparable (length a) (length b) /\ exists v, allclose_pos a b = Ok v /\ (v = true <-> paired vec_close a b)) \/
  (~ comparable (length a) (length b) /\ allclose_pos a b = Raise ValueError).
Proof.
  destruct a as [|x a], b as [|y b].
  - left. split; [tauto|]. split; [left; reflexivity|]. exists true. split; [reflexivity|]. split; [intros _; left; constructor|reflexivity].
  - right. split; [unfold comparable; cbn; lia|reflexivity].
  - right. split; [unfold comparable; cbn; lia|reflexivity].
  - destruct (@allclose1_spec _ vclose vec_close (x :: a) (y :: b) vclose_spec) as [(C & H)|H]; try discriminate.
    + left. split; [split; discriminate|]. split; [exact C|]. exact H.
    + right. exact H.
Qed.

Lemma paired_map A B (f : A -> B) (R : B -> B -> Prop) a b : paired R (map f a) (map f b) <-> paired (fun x y => R (f x) (f y)) a b.
Proof.
  assert (F2 : forall a b, Forall2 R (map f a) (map f b) <-> Forall2 (fun x y => R (f x) (f y)) a b).
  { induction a0 as [|x a0 IH]; intros [|y b0]; cbn; split; intros H; inversion H; subst; constructor; auto; apply IH; auto. }
  assert (F1 : forall (P : B -> Prop) l, Forall P (map f l) <-> Forall (fun x => P (f x)) l).
  { intros P l. rewrite !Forall_forall. split.
    - intros H x X. apply H. apply in_map. exact X.
    - intros H y Y. apply in_map_iff in Y. destruct Y as (x & <- & X). auto. }
  unfold paired. rewrite F2. split; (intros [H|[(x & E & N & H)|(x & E & N & H)]]; [left; exact H|right; left|right; right]).
  - destruct a as [|z [|? ?]]; try discriminate. injection E as <-. exists z. split; [reflexivity|]. split.
    + intros ->. auto.
    + apply F1 in H. exact H.
  - destruct b as [|z [|? ?]]; try discriminate. injection E as <-. exists z. split; [reflexivity|]. split.
    + intros ->. auto.
    + apply (F1 (fun w => R w (f z))) in H. exact H.
  - subst a. exists (f x). split; [reflexivity|]. split; [destruct b; [congruence|discriminate]|]. apply F1. exact H.
  - subst b. exists (f x). split; [reflexivity|]. split; [destruct a; [congruence|discriminate]|]. apply (F1 (fun w => R w (f x))). exact H.
Qed.
Lemma paired_and A (R S : A -> A -> Prop) a b : paired R a b -> paired S a b -> paired (fun x y => R x y /\ S x y) a b.
Proof.
  unfold paired. intros H K.
  assert (FF : forall (P Q : A -> Prop) l, Forall P l -> Forall Q l -> Forall (fun x => P x /\ Q x) l).
  { intros P Q l HP HQ. rewrite Forall_forall in *. auto. }
  assert (F2 : forall a b, Forall2 R a b -> Forall2 S a b -> Forall2 (fun x y => R x y /\ S x y) a b).
  { induction 1; intros L; inversion L; subst; constructor; auto. }
  assert (S1 : forall (T : A -> A -> Prop) x b, Forall2 T [x] b -> b <> [] -> Forall (T x) b).
  { intros T x l L N. inversion L as [|? ? ? ? T1 T2]; subst. inversion T2; subst. constructor; auto. }
  assert (S2 : forall (T : A -> A -> Prop) a y, Forall2 T a [y] -> Forall (fun x => T x y) a).
  { intros T l y L. inversion L as [|? ? ? ? T1 T2]; subst. inversion T2; subst. constructor; auto. }
  destruct H as [H|[(x & -> & N & H)|(y & -> & N & H)]].
  - destruct K as [K|[(x & -> & N & K)|(y & -> & N & K)]]; [left; auto| |].
    + right. left. exists x. auto.
    + right. right. exists y. repeat split; auto.
  - destruct K as [K|[(x' & [= <-] & _ & K)|(y & -> & N' & K)]].
    + right. left. exists x. auto.
    + right. left. exists x. auto.
    + right. left. exists x. split; [reflexivity|]. split; [exact N|]. inversion H; inversion K; subst. constructor; auto.
  - destruct K as [K|[(x & -> & N' & K)|(y' & [= <-] & _ & K)]].
    + right. right. exists y. repeat split; auto.
    + right. right. exists y. split; [reflexivity|]. split; [exact N|]. inversion H; inversion K; subst. constructor; auto.
    + right. right. exists y. auto.
Qed.
Lemma paired_impl A (R S : A -> A -> Prop) a b : (forall x y, R x y -> S x y) -> paired R a b -> paired S a b.
Proof.
  intros I [H|[(x & E & N & H)|(y & E & N & H)]].
  - left. eapply Forall2_imp; eauto.
  - right. left. exists x. split; [exact E|]. split; [exact N|]. eapply Forall_impl; [|exact H]. auto.
  - right. right. exists y. split; [exact E|]. split; [exact N|]. eapply Forall_impl; [|exact H]. cbn. auto.
Qed.

Lemma mc_eq_spec h c d L M ss ts : wf_heap h -> contains h c L ss -> contains h d M ts ->
  (~ lat_close L M -> mc_eq h c d = Ok false) /\
  (lat_close L M -> ~ comparable (length ss) (length ts) -> mc_eq h c d = Raise ValueError) /\
  (comparable (length ss) (length ts) -> exists v, mc_eq h c d = Ok v /\ (v = true <-> lat_close L M /\ paired site_close ss ts)).
Proof.
  intros W C D. apply contains_iff in C; [|exact W]. apply contains_iff in D; [|exact W].
  destruct C as (C & -> & ->), D as (D & -> & ->). unfold mc_eq.
  set (A := mc_lattice (cell_at h c)). set (B := mc_lattice (cell_at h d)). rewrite !map_length.
  assert (PA : mc_positions h c = map s_pos (map (site_at h) (refs h c))) by (unfold mc_positions; rewrite map_map; reflexivity).
  assert (PB : mc_positions h d = map s_pos (map (site_at h) (refs h d))) by (unfold mc_positions; rewrite map_map; reflexivity).
  set (nf := fun s => sp_Z (s_ele s)).
  assert (NA : mc_numbers h c = map nf (map (site_at h) (refs h c))) by (unfold mc_numbers; rewrite map_map; reflexivity).
  assert (NB : mc_numbers h d = map nf (map (site_at h) (refs h d))) by (unfold mc_numbers; rewrite map_map; reflexivity).
  rewrite PA, PB, NA, NB. set (a := map (site_at h) (refs h c)). set (b := map (site_at h) (refs h d)).
  assert (LA : length (refs h c) = length a) by (unfold a; rewrite map_length; reflexivity).
  assert (LB : length (refs h d) = length b) by (unfold b; rewrite map_length; reflexivity).
  rewrite LA, LB. clearbody a b. clear PA PB NA NB LA LB.
  destruct (mclose A B) eqn:MC.
  - assert (K : lat_close A B) by (apply mclose_spec; exact MC).
    split; [contradiction|].
    pose proof (allclose_pos_spec (map s_pos a) (map s_pos b)) as H. rewrite !map_length in H.
    destruct H as [(NE & Cm & v & E & V)|(NC & E)]; rewrite E; cbn [bind].
    + split; [contradiction|]. intros _. rewrite (paired_map s_pos) in V.
      assert (NN : exists w, allclose_num (map nf a) (map nf b) = Ok w /\ (w = true <-> paired (fun x y => np_close (Zc (nf x)) (Zc (nf y))) a b)).
      { destruct a as [|x a].
        - assert (b = []) as ->. { destruct b; [reflexivity|]. exfalso. pose proof (proj1 NE eq_refl). discriminate. }
          exists true. split; [reflexivity|]. split; [intros _; left; constructor|reflexivity].
        - destruct b as [|y b]. { exfalso. pose proof (proj2 NE eq_refl). discriminate. }
          destruct (@allclose1_spec Z (fun x y => close (Zc x) (Zc y)) (fun x y => np_close (Zc x) (Zc y)) (map nf (x :: a)) (map nf (y :: b))) as [(_ & w & E2 & Wv)|(NC & _)].
          + intros; apply close_spec.
          + discriminate.
          + discriminate.
          + exists w. split; [exact E2|]. rewrite Wv. apply (paired_map nf (fun x y => np_close (Zc x) (Zc y))).
          + exfalso. apply NC. rewrite !map_length. exact Cm. }
      destruct NN as (w & E2 & Wv). destruct v.
      * rewrite E2; cbn [bind]. exists w. split; [reflexivity|]. rewrite Wv. split.
        -- intros P. split; [exact K|]. apply paired_and; [apply V; reflexivity|exact P].
        -- intros [_ P]. eapply paired_impl; [|exact P]. intros x y [_ Q]. exact Q.
      * exists false. split; [reflexivity|]. split; [discriminate|]. intros [_ P]. apply V. eapply paired_impl; [|exact P]. intros x y [Q _]. exact Q.
    + split; [intros; reflexivity|]. contradiction.
  - assert (K : ~ lat_close A B) by (rewrite <- mclose_spec; congruence).
    split; [reflexivity|]. split; [contradiction|]. intros _. exists false. split; [reflexivity|]. split; [discriminate|]. tauto.
Qed.

Lemma numbers_close x y : (Z.abs y <= 99998)%Z -> np_close (Zc x) (Zc y) <-> x = y.
Proof.
  intros B. split.
  - intros (d & ay & D & P & A & Q & H).
    assert (Y1 : (Zc y <= Zc 99998)%Qc) by (apply Zc_le; lia).
    assert (Y2 : (Zc (-99998) <= Zc y)%Qc) by (apply Zc_le; lia).
    assert (D1 : (d < 1)%Qc).
    { assert (Zc 99998 = Q2Qc (99998 # 1)) as E by reflexivity. assert (Zc (-99998) = Q2Qc (-99998 # 1)) as E2 by reflexivity.
      rewrite E in Y1. rewrite E2 in Y2. destruct A as [-> | ->]; qclra. }
    rewrite <- Zc_1 in D1. rewrite <- Zc_0 in P.
    destruct D as [-> | ->]; rewrite <- Zc_minus in P, D1; rewrite (Zc_le _ _) in P; rewrite (Zc_lt _ _) in D1; lia.
  - intros ->. apply close_spec. unfold close. rewrite Qcleb_le.
    destruct (Qcabs_spec (Zc y - Zc y)) as [[-> _]|[-> R]]; destruct (Qcabs_spec (Zc y)) as [[-> S]|[-> S]]; qclra.
Qed.

(** ** conversion *)
Lemma from_to_gcell h g : wf_heap h -> positions g <> [] -> length (positions g) = length (numbers g) ->
  Forall supported (numbers g) ->
  exists h' c, from_gcell g h = (h', Ok c) /\ mc_lattice (cell_at h' c) = lattice g /\
    mc_positions h' c = positions g /\ mc_numbers h' c = numbers g /\ wf_heap h' /\ is_cell h' c.
Proof.
  intros W NE L S. unfold from_gcell.
  destruct (ModifiedCell_new_spec (lattice g) (positions g) (numbers g) W) as [(_ & h' & E & F & C & LL & _ & _ & V)|(N & _)].
  - exists h', (length (h_cell h)). split; [exact E|]. split; [exact LL|].
    assert (K : mc_positions h' (length (h_cell h)) = map fst (combine (positions g) (numbers g)) /\
                mc_numbers h' (length (h_cell h)) = map snd (combine (positions g) (numbers g))).
    { unfold mc_positions, mc_numbers. clear -V. induction V as [|[p z] a l rs [V1 V2] V IH]; cbn; [auto|].
      destruct IH as [IH1 IH2]. cbn in V1, V2. apply from_num_inv in V2. destruct V2 as [_ V2]. split; congruence. }
    destruct K as [-> ->]. rewrite (map_fst_combine _ _ L), (map_snd_combine _ _ L). repeat split; auto; apply F.
  - exfalso. apply N. apply Forall_forall. intros [p z] I. apply in_combine_r in I. rewrite Forall_forall in S. apply S. exact I.
Qed.

(** ** extend with a cell *)
Lemma extend_self_diverges c fuel : forall h i, wf_heap h -> is_cell h c -> Forall (is_site h) (refs h c) ->
  (i < length (refs h c))%nat -> iter_list fuel (mc_list (cell_at h c)) i (mc_append c) h = None.
Proof.
  induction fuel as [|fuel IH]; intros h i W C F I; [reflexivity|]. cbn [iter_list].
  change (list_at h (mc_list (cell_at h c))) with (refs h c).
  destruct (nth_error (refs h c) i) as [a|] eqn:N; [|apply nth_error_None in N; lia].
  change (mc_append c a h) with (with_list h c (refs h c ++ [a]), @Ok unit tt).
  assert (A : is_site h a) by (rewrite Forall_forall in F; apply F; eapply nth_error_In; eauto).
  assert (FF : Forall (is_site h) (refs h c ++ [a])) by (apply Forall_app; split; [exact F|constructor; auto]).
  apply (IH (with_list h c (refs h c ++ [a])) (S i)); try (rewrite refs_with_list by assumption).
  - apply wf_with_list; auto.
  - exact C.
  - exact FF.
  - rewrite app_length; cbn. lia.
Qed.

Lemma extend_other c d k : c <> d -> forall fuel h i, wf_heap h -> is_cell h c -> is_cell h d ->
  (i + k = length (refs h d))%nat -> (k < fuel)%nat ->
  exists h', iter_list fuel (mc_list (cell_at h d)) i (mc_append c) h = Some (h', Ok tt) /\ wf_heap h' /\
    h_site h' = h_site h /\ h_cell h' = h_cell h /\ refs h' c = refs h c ++ skipn i (refs h d) /\
    (forall e, is_cell h e -> e <> c -> refs h' e = refs h e).
Proof.
  intros ND. induction k as [|k IH]; intros fuel h i W C D L F; (destruct fuel as [|fuel]; [lia|]); cbn [iter_list];
    change (list_at h (mc_list (cell_at h d))) with (refs h d).
  - replace (nth_error (refs h d) i) with (@None nat) by (symmetry; apply nth_error_None; lia).
    exists h. rewrite skipn_all2 by lia. rewrite app_nil_r. repeat (split; [reflexivity || assumption|]). reflexivity.
  - destruct (nth_error (refs h d) i) as [a|] eqn:N; [|apply nth_error_None in N; lia].
    change (mc_append c a h) with (with_list h c (refs h c ++ [a]), @Ok unit tt).
    set (h1 := with_list h c (refs h c ++ [a])).
    assert (A : is_site h a) by (eapply wf_refs_site; [exact W|exact D|eapply nth_error_In; eauto]).
    assert (W1 : wf_heap h1).
    { apply wf_with_list; [exact W|]. apply Forall_app. split; [|constructor; auto]. apply Forall_forall. intros x X. eapply wf_refs_site; [exact W|exact C|exact X]. }
    assert (Rd : refs h1 d = refs h d) by (apply refs_with_list_other; auto).
    assert (Rc : refs h1 c = refs h c ++ [a]) by (apply refs_with_list; auto).
    destruct (IH fuel h1 (S i) W1 C D ltac:(rewrite Rd; lia) ltac:(lia)) as (h' & E & W' & S' & C' & R & O).
    exists h'. split; [exact E|]. split; [exact W'|]. split; [exact S'|]. split; [exact C'|]. split.
    + rewrite R, Rc, Rd, <- app_assoc. f_equal. clear -N. revert i N. generalize (refs h d) as l.
      induction l as [|x l IHl]; intros [|i] N; try discriminate; cbn in *; [congruence|]. apply IHl. exact N.
    + intros e Ce Ne. rewrite O by assumption. apply refs_with_list_other; auto.
Qed.

Lemma default_lemma lat h : wf_heap h -> exists h' c p, ModifiedCell_default lat h = (h', Ok c) /\ wf_heap h' /\ ~ is_cell h c /\
  contains h' c lat [p] /\ s_pos p = v0 /\ sp_Z (s_ele p) = 0 /\ (forall d l ss, contains h d l ss -> contains h' d l ss).
Proof.
  intros W. unfold ModifiedCell_default. destruct (ModifiedCell_new_spec lat [v0] [0] W) as [(_ & h' & E & F & C & LL & _ & _ & V)|(N & _)].
  2:{ exfalso. apply N. constructor; [|constructor]. cbn. unfold supported. lia. }
  exists h', (length (h_cell h)). cbn [combine] in V. inversion V as [|? a ? rs [V1 V2] V3 E1 E2]; subst. inversion V3; subst. cbn [fst snd] in V1, V2.
  pose proof F as (W' & _ & LC & FL & FR & _ & FS & _). exists (site_at h' a). split; [exact E|]. split; [exact W'|]. split; [unfold is_cell; lia|].
  split; [apply contains_iff; [exact W'|]; rewrite <- E2; auto|]. split; [exact V1|]. split; [apply from_num_inv in V2; tauto|].
  intros d l ss X. apply contains_iff in X; [|exact W]. destruct X as (D & -> & ->). apply contains_iff; [exact W'|]. split; [unfold is_cell in *; lia|].
  split; [now rewrite FL|]. rewrite FR by (auto; discriminate). apply map_ext_in. intros b I. symmetry. apply FS; [|discriminate].
  exact (wf_refs_site W D I).
Qed.
