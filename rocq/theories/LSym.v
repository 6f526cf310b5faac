From Coq Require Import Sorted.
From Verif Require Import Base LBase BaseQ LQ MSort SSort LSort MGeneralCell SGeneralCell LGeneralCell SSym.
Set Implicit Arguments.
Unset Strict Implicit.
Open Scope nat_scope.

(** ** Permutation actions *)
Lemma reordered_nth A (x : list A) p y i : reordered x p y ->
  nth_error y i = match nth_error p i with Some j => nth_error x j | None => None end.
Proof.
  unfold reordered. intros H. revert i. induction H as [|j a p y Hja H IH]; intros [|i]; cbn; auto.
Qed.

Lemma reordered_intro A (x : list A) p y : length y = length p ->
  (forall i j, nth_error p i = Some j -> exists a, nth_error x j = Some a /\ nth_error y i = Some a) ->
  reordered x p y.
Proof.
  unfold reordered. revert y; induction p as [|j p IH]; intros [|b y] L H; cbn in L; try discriminate; constructor.
  - destruct (H 0 j eq_refl) as [a [H1 H2]]. cbn in H2. congruence.
  - apply IH; [congruence|]. intros i k E. apply (H (S i) k E).
Qed.

Lemma reordered_length A (x : list A) p y : reordered x p y -> length y = length p.
Proof. intros H. symmetry. eapply Forall2_len; eauto. Qed.

Lemma reordered_fun A (x : list A) p y y' : reordered x p y -> reordered x p y' -> y = y'.
Proof.
  intros H H'. apply list_ext. intros i. now rewrite (reordered_nth i H), (reordered_nth i H').
Qed.

Lemma perm_length n (p : list nat) : Permutation p (seq 0 n) -> length p = n.
Proof. intros H. apply Permutation_length in H. now rewrite seq_length in H. Qed.

Lemma perm_lt n (p : list nat) i j : Permutation p (seq 0 n) -> nth_error p i = Some j -> j < n.
Proof.
  intros H E. apply nth_error_In in E. apply (Permutation_in _ H), in_seq in E. lia.
Qed.

Lemma perm_surj n (p : list nat) j : Permutation p (seq 0 n) -> j < n -> exists i, i < n /\ nth_error p i = Some j.
Proof.
  intros H L. assert (I : In j p) by (apply (Permutation_in _ (Permutation_sym H)), in_seq; lia).
  apply In_nth_error in I. destruct I as [i E]. exists i. split; [|assumption].
  rewrite <- (perm_length H). apply nth_error_Some. congruence.
Qed.

Lemma perm_inj n (p : list nat) i i' j : Permutation p (seq 0 n) -> nth_error p i = Some j -> nth_error p i' = Some j -> i = i'.
Proof.
  intros H E E'. assert (ND : NoDup p) by (eapply Permutation_NoDup; [symmetry; exact H|apply seq_NoDup]).
  eapply (proj1 (NoDup_nth_error p) ND); [apply nth_error_Some; congruence|congruence].
Qed.

Lemma nth_error_seq s n i : nth_error (seq s n) i = if i <? n then Some (s + i) else None.
Proof.
  revert s i; induction n as [|n IH]; intros s i; [now destruct i|].
  destruct i as [|i]; cbn [seq nth_error].
  - cbn. f_equal. lia.
  - rewrite IH. change (S i <? S n) with (i <? n). destruct (i <? n); [f_equal; lia|reflexivity].
Qed.

Lemma reordered_exists A (x : list A) p n : Permutation p (seq 0 n) -> length x = n -> exists y, reordered x p y /\ length y = n.
Proof.
  intros H L. destruct x as [|d x].
  - cbn in L. subst n. apply Permutation_sym, Permutation_nil in H. subst. exists []. split; [constructor|reflexivity].
  - eexists. split; [apply (@reordered_map _ (d :: x) p d)|].
    + intros i Hi. apply (Permutation_in _ H), in_seq in Hi. lia.
    + rewrite map_length. now apply perm_length.
Qed.

Lemma reordered_id A (x : list A) : reordered x (seq 0 (length x)) x.
Proof.
  apply reordered_intro; [now rewrite seq_length|]. intros i j E. rewrite nth_error_seq in E.
  destruct (Nat.ltb_spec i (length x)); [|discriminate]. injection E as <-. cbn.
  destruct (nth_error x i) eqn:F; [eauto|]. apply nth_error_None in F. lia.
Qed.

Lemma reordered_comp A (x y z : list A) p q r n :
  Permutation p (seq 0 n) -> Permutation q (seq 0 n) -> Permutation r (seq 0 n) -> length x = n ->
  (forall i j, nth_error q i = Some j -> nth_error r i = nth_error p j) ->
  reordered x p y -> reordered y q z -> reordered x r z.
Proof.
  intros Pp Pq Pr L C H1 H2. apply reordered_intro.
  - rewrite (reordered_length H2), (perm_length Pq), (perm_length Pr). reflexivity.
  - intros i j E. rewrite (reordered_nth i H2).
    destruct (nth_error q i) as [k|] eqn:Ek.
    + rewrite (C _ _ Ek) in E. rewrite (reordered_nth k H1), E.
      destruct (nth_error x j) eqn:F; [eauto|]. apply nth_error_None in F.
      pose proof (perm_lt Pp E). lia.
    + exfalso. apply nth_error_None in Ek. rewrite (perm_length Pq) in Ek.
      assert (nth_error r i <> None) by congruence. apply nth_error_Some in H. rewrite (perm_length Pr) in H. lia.
Qed.

Lemma reordered_inv A (x y : list A) p r n :
  Permutation p (seq 0 n) -> Permutation r (seq 0 n) -> length x = n ->
  (forall i j, nth_error p i = Some j -> nth_error r j = Some i) ->
  reordered x p y -> reordered y r x.
Proof.
  intros Pp Pr L C H. apply reordered_intro.
  - now rewrite (perm_length Pr).
  - intros i j E. assert (Hi : i < n) by (rewrite <- (perm_length Pr); apply nth_error_Some; congruence).
    destruct (perm_surj Pp Hi) as [k [_ Ek]]. rewrite (C _ _ Ek) in E. injection E as <-.
    rewrite (reordered_nth k H), Ek. destruct (nth_error x i) eqn:F; [eauto|].
    apply nth_error_None in F. lia.
Qed.

Section Group.
Context (n : nat) (G : list (list nat)).
Hypothesis HG : perm_group n G.

Lemma equivalent_refl A (x : list A) : length x = n -> equivalent G x x.
Proof.
  intros L. destruct HG as [_ [I _]]. exists (seq 0 n). split; [assumption|]. subst n. apply reordered_id.
Qed.

Lemma equivalent_length A (x y : list A) : equivalent G x y -> length y = n.
Proof. destruct HG as [HP _]. intros [p [Hp H]]. rewrite (reordered_length H). apply perm_length. auto. Qed.

Lemma equivalent_sym A (x y : list A) : length x = n -> equivalent G x y -> equivalent G y x.
Proof.
  intros L [p [Hp H]]. destruct HG as [HP [_ [_ HI]]]. destruct (HI p Hp) as [r [Hr C]].
  exists r. split; [assumption|]. apply (reordered_inv (HP p Hp) (HP r Hr) L C H).
Qed.

Lemma equivalent_trans A (x y z : list A) : length x = n -> equivalent G x y -> equivalent G y z -> equivalent G x z.
Proof.
  intros L [p [Hp H]] [q [Hq K]]. destruct HG as [HP [_ [HC _]]]. destruct (HC p q Hp Hq) as [r [Hr C]].
  exists r. split; [assumption|]. apply (reordered_comp (HP p Hp) (HP q Hq) (HP r Hr) L C H K).
Qed.
End Group.

(** ** Geometry of get_symmetry_permutation *)
Lemma apply_op_image o p : apply_op o p = op_image (fst o) (snd o) p.
Proof. destruct o as [r t], p. unfold apply_op, op_image, mat_vec, matZ, vadd, vdot, vmap; cbn. reflexivity. Qed.

Lemma carries_iff o p q : carries o p q <-> tofrac (apply_op o p) = tofrac q.
Proof.
  unfold carries. rewrite apply_op_image. split.
  - intros [k [H1 H2]]. apply tofrac_vwrap3 in H1, H2. congruence.
  - intros E. exists (tofrac q). split; apply tofrac_vwrap3; congruence.
Qed.

Lemma carries_exactly_carries o p q : carries_exactly o p q -> carries o p q.
Proof.
  unfold carries_exactly. intros H. apply carries_iff. rewrite apply_op_image. symmetry. now apply tofrac_shift.
Qed.

Lemma distinct_keys pos : distinct_sites pos <-> NoDup (List.map tofrac pos).
Proof.
  unfold distinct_sites. split.
  - intros H. apply H. now apply Forall2_vwrap3.
  - intros H ks F. apply Forall2_vwrap3 in F. now subst.
Qed.

Lemma distinct_pos pos : NoDup (List.map tofrac pos) -> forall i j p q, nth_error pos i = Some p -> nth_error pos j = Some q ->
  tofrac p = tofrac q -> i = j.
Proof.
  intros ND i j p q Hi Hj E.
  apply (proj1 (NoDup_nth_error (List.map tofrac pos)) ND).
  - rewrite map_length. apply nth_error_Some. congruence.
  - rewrite !nth_error_map, Hi, Hj. cbn. now f_equal.
Qed.

(** strict key order of canonical positions *)
Lemma canonical_sorted pos : canonical pos -> StronglySorted (fun a b => vleb a b = true) (List.map tofrac pos).
Proof.
  intros C. unfold canonical, order_of in C. pose proof (lexsort_keys_sorted (List.map tofrac pos)) as H.
  rewrite C in H. rewrite <- (map_length tofrac pos) in H.
  rewrite <- (map_nth_seq (List.map tofrac pos) v0). exact H.
Qed.

Lemma maps_perm_keys o pos : NoDup (List.map tofrac pos) -> maps_sites o pos ->
  Permutation (List.map tofrac (List.map (apply_op o) pos)) (List.map tofrac pos).
Proof.
  intros ND [M1 M2].
  assert (Inc : incl (List.map tofrac pos) (List.map tofrac (List.map (apply_op o) pos))).
  { intros k Hk. apply in_map_iff in Hk. destruct Hk as [q [<- Hq]]. destruct (M2 q Hq) as [p [Hp Hc]].
    apply carries_iff in Hc. rewrite <- Hc. apply in_map, in_map. assumption. }
  symmetry. apply NoDup_Permutation_bis; [assumption|rewrite !map_length; lia|exact Inc].
Qed.

Lemma sym_perm_spec o pos : canonical pos -> NoDup (List.map tofrac pos) -> maps_sites o pos ->
  Permutation (order_of (List.map (apply_op o) pos)) (seq 0 (length pos)) /\
  forall i j, nth_error (order_of (List.map (apply_op o) pos)) i = Some j ->
    exists p q, nth_error pos j = Some p /\ nth_error pos i = Some q /\ carries o p q.
Proof.
  intros C ND M. set (pos' := List.map (apply_op o) pos).
  assert (L : length pos' = length pos) by apply map_length.
  assert (P : Permutation (order_of pos') (seq 0 (length pos))) by (rewrite <- L; apply order_of_perm).
  split; [exact P|]. intros i j E.
  set (ks := List.map tofrac pos). set (ks' := List.map tofrac pos').
  assert (S1 : List.map (key_at ks') (lexsort ks') = ks).
  { apply (@sorted_unique_antisym _ (fun a b => vleb a b = true)).
    - intros x y _ _. apply vleb_antisym.
    - apply lexsort_keys_sorted.
    - now apply canonical_sorted.
    - transitivity ks'.
      + rewrite <- (map_nth_seq ks' v0) at 3. apply Permutation_map. apply lexsort_perm.
      + now apply maps_perm_keys. }
  assert (Hj : j < length pos) by (apply (perm_lt P E)).
  assert (Hi : i < length pos) by (rewrite <- (perm_length P); apply nth_error_Some; congruence).
  destruct (nth_error pos j) as [p|] eqn:Ep; [|apply nth_error_None in Ep; lia].
  destruct (nth_error pos i) as [q|] eqn:Eq; [|apply nth_error_None in Eq; lia].
  exists p, q. split; [reflexivity|]. split; [reflexivity|]. apply carries_iff.
  assert (K1 : nth_error (List.map (key_at ks') (lexsort ks')) i = Some (key_at ks' j)).
  { rewrite nth_error_map. unfold order_of in E. fold ks' in E. now rewrite E. }
  rewrite S1 in K1. unfold ks in K1. rewrite nth_error_map, Eq in K1. cbn in K1. injection K1 as K1.
  rewrite K1. symmetry. apply key_at_nth. unfold ks', pos'. now rewrite !nth_error_map, Ep.
Qed.

(** uniqueness: any permutation with the carrying property is the computed one *)
Lemma sym_perm_unique o pos r i j : NoDup (List.map tofrac pos) ->
  (forall i j, nth_error r i = Some j -> exists p q, nth_error pos j = Some p /\ nth_error pos i = Some q /\ carries o p q) ->
  Permutation r (seq 0 (length pos)) ->
  nth_error r i = Some j -> forall p q, nth_error pos j = Some p -> nth_error pos i = Some q -> carries o p q.
Proof.
  intros ND H P E p q Hp Hq. destruct (H _ _ E) as [p' [q' [H1 [H2 H3]]]]. congruence.
Qed.

Lemma mapM_gsp_ok ops c : positions c <> [] ->
  get_symmetry_permutation ops c = Ok (List.map (fun o => order_of (List.map (apply_op o) (positions c))) ops).
Proof.
  intros N. unfold get_symmetry_permutation. apply mapM_ok_map. intros o _.
  apply get_new_id_seq_ok. destruct (positions c); [congruence|discriminate].
Qed.

Lemma C13_lemma ops c perms : canonical (positions c) -> distinct_sites (positions c) ->
  get_symmetry_permutation ops c = Ok perms ->
  Forall2 (fun o perm => maps_sites o (positions c) ->
     Permutation perm (seq 0 (length (positions c))) /\
     forall i j, nth_error perm i = Some j ->
       exists p q, nth_error (positions c) j = Some p /\ nth_error (positions c) i = Some q /\ carries o p q) ops perms.
Proof.
  intros C ND H. apply distinct_keys in ND. unfold get_symmetry_permutation in H.
  apply mapM_ok_forall2 in H. eapply Forall2_imp; [|exact H].
  intros o perm E M. cbn in E.
  destruct (positions c) as [|p pos] eqn:Ep; [discriminate|]. rewrite <- Ep in *.
  rewrite get_new_id_seq_ok in E by (rewrite Ep; discriminate). injection E as <-.
  now apply sym_perm_spec.
Qed.

Lemma carries_fun o pos i i' j p q q' : NoDup (List.map tofrac pos) ->
  nth_error pos j = Some p -> nth_error pos i = Some q -> nth_error pos i' = Some q' ->
  carries o p q -> carries o p q' -> i = i'.
Proof.
  intros ND Hp Hq Hq' C C'. apply carries_iff in C, C'. eapply distinct_pos; eauto. congruence.
Qed.

Lemma C14_lemma ops c perms : canonical (positions c) -> distinct_sites (positions c) ->
  (forall o, In o ops -> maps_sites o (positions c)) -> ops_group ops (positions c) ->
  get_symmetry_permutation ops c = Ok perms ->
  perm_group (length (positions c)) perms.
Proof.
  intros C ND M [GI [GC GV]] H. pose proof (C13_lemma C ND H) as F. apply distinct_keys in ND.
  assert (F1 : forall p, In p perms -> exists o, In o ops /\ Permutation p (seq 0 (length (positions c))) /\
     forall i j, nth_error p i = Some j ->
       exists a b, nth_error (positions c) j = Some a /\ nth_error (positions c) i = Some b /\ carries o a b).
  { intros p Hp. clear - F Hp M. induction F as [|o q ops perms Ho F IH]; [easy|].
    destruct Hp as [<-|Hp].
    - exists o. split; [now left|]. apply Ho. apply M. now left.
    - destruct IH as [o' [I K]]; [intros o' Ho'; apply M; now right|assumption|]. exists o'. split; [now right|assumption]. }
  assert (F2 : forall o, In o ops -> exists p, In p perms /\ Permutation p (seq 0 (length (positions c))) /\
     forall i j, nth_error p i = Some j ->
       exists a b, nth_error (positions c) j = Some a /\ nth_error (positions c) i = Some b /\ carries o a b).
  { intros p Hp. clear - F Hp M. induction F as [|o q ops perms Ho F IH]; [easy|].
    destruct Hp as [<-|Hp].
    - exists q. split; [now left|]. apply Ho. apply M. now left.
    - destruct IH as [o' [I K]]; [intros o' Ho'; apply M; now right|assumption|]. exists o'. split; [now right|assumption]. }
  set (n := length (positions c)) in *.
  assert (Dist : forall o p i j i' , Permutation p (seq 0 n) ->
     (forall i j, nth_error p i = Some j -> exists a b, nth_error (positions c) j = Some a /\ nth_error (positions c) i = Some b /\ carries o a b) ->
     i' < n -> j < n -> (exists a b, nth_error (positions c) j = Some a /\ nth_error (positions c) i' = Some b /\ carries o a b) ->
     nth_error p i = Some j -> i = i').
  { intros o p i j i' P K Hi' Hj [a [b [Ha [Hb Hc]]]] E.
    destruct (K _ _ E) as [a' [b' [Ha' [Hb' Hc']]]]. assert (a' = a) by congruence. subst a'.
    exact (carries_fun ND Ha Hb' Hb Hc' Hc). }
  assert (Val : forall o p i j, Permutation p (seq 0 n) ->
     (forall i j, nth_error p i = Some j -> exists a b, nth_error (positions c) j = Some a /\ nth_error (positions c) i = Some b /\ carries o a b) ->
     i < n -> j < n -> (exists a b, nth_error (positions c) j = Some a /\ nth_error (positions c) i = Some b /\ carries o a b) ->
     nth_error p i = Some j).
  { intros o p i j P K Hi Hj Hex. destruct (perm_surj P Hj) as [k [Hk Ek]].
    assert (k = i) by exact (Dist o p k j i P K Hi Hj Hex Ek). congruence. }
  assert (At : forall i, i < n -> exists a, nth_error (positions c) i = Some a).
  { intros i Hi. destruct (nth_error (positions c) i) eqn:E; [eauto|]. apply nth_error_None in E. unfold n in Hi. lia. }
  split; [|split; [|split]].
  - intros p Hp. destruct (F1 p Hp) as [o [_ [P _]]]. exact P.
  - destruct GI as [o [Ho HI]]. destruct (F2 o Ho) as [p [Hp [P K]]].
    replace (seq 0 n) with p; [assumption|]. apply list_ext. intros i. rewrite nth_error_seq. change (0 + i) with i.
    destruct (Nat.ltb_spec i n) as [Hi|Hi].
    + destruct (At i Hi) as [a Ha]. apply (Val o p i i P K Hi Hi). exists a, a. split; [assumption|]. split; [assumption|].
      apply HI. eapply nth_error_In; eauto.
    + apply nth_error_None. rewrite (perm_length P). lia.
  - intros p q Hp Hq. destruct (F1 p Hp) as [o1 [Ho1 [P1 K1]]], (F1 q Hq) as [o2 [Ho2 [P2 K2]]].
    destruct (GC o1 o2 Ho1 Ho2) as [o3 [Ho3 HC]]. destruct (F2 o3 Ho3) as [r [Hr [P3 K3]]].
    exists r. split; [assumption|]. intros i j E.
    assert (Hj : j < n) by exact (perm_lt P2 E).
    assert (Hi : i < n) by (rewrite <- (perm_length P2); apply nth_error_Some; congruence).
    destruct (nth_error p j) as [k|] eqn:Ek.
    + assert (Hk : k < n) by exact (perm_lt P1 Ek).
      apply (Val o3 r i k P3 K3 Hi Hk).
      destruct (K1 _ _ Ek) as [a [b [Ha [Hb Cab]]]]. destruct (K2 _ _ E) as [b' [d [Hb' [Hd Cbd]]]].
      assert (b' = b) by congruence. subst b'. exists a, d. split; [assumption|]. split; [assumption|].
      apply (HC a b d); try assumption; eapply nth_error_In; eassumption.
    + apply nth_error_None in Ek. rewrite (perm_length P1) in Ek. lia.
  - intros p Hp. destruct (F1 p Hp) as [o [Ho [P K]]]. destruct (GV o Ho) as [o' [Ho' HV]].
    destruct (F2 o' Ho') as [r [Hr [P' K']]]. exists r. split; [assumption|]. intros i j E.
    assert (Hj : j < n) by exact (perm_lt P E).
    assert (Hi : i < n) by (rewrite <- (perm_length P); apply nth_error_Some; congruence).
    apply (Val o' r j i P' K' Hj Hi). destruct (K _ _ E) as [a [b [Ha [Hb Cab]]]]. exists b, a.
    split; [assumption|]. split; [assumption|]. apply HV; try assumption; eapply nth_error_In; eassumption.
Qed.

Lemma C14_preserves ops c perms : canonical (positions c) -> distinct_sites (positions c) ->
  length (numbers c) = length (positions c) ->
  (forall o, In o ops -> maps_sites o (positions c)) ->
  (forall o i j p q, In o ops -> nth_error (positions c) j = Some p -> nth_error (positions c) i = Some q ->
     carries o p q -> nth_error (numbers c) j = nth_error (numbers c) i) ->
  get_symmetry_permutation ops c = Ok perms ->
  preserves perms (numbers c).
Proof.
  intros C ND L M S H. pose proof (C13_lemma C ND H) as F. intros perm Hp.
  assert (F1 : exists o, In o ops /\ Permutation perm (seq 0 (length (positions c))) /\
     forall i j, nth_error perm i = Some j ->
       exists a b, nth_error (positions c) j = Some a /\ nth_error (positions c) i = Some b /\ carries o a b).
  { clear - F Hp M. induction F as [|o q ops perms Ho F IH]; [easy|].
    destruct Hp as [<-|Hp].
    - exists o. split; [now left|]. apply Ho. apply M. now left.
    - destruct IH as [o' [I K]]; [intros o' Ho'; apply M; now right|assumption|]. exists o'. split; [now right|assumption]. }
  destruct F1 as [o [Ho [P K]]]. apply reordered_intro; [rewrite (perm_length P); assumption|].
  intros i j E. destruct (K _ _ E) as [a [b [Ha [Hb Hc]]]]. pose proof (S _ _ _ _ _ Ho Ha Hb Hc) as E2.
  assert (Hj : j < length (numbers c)) by (rewrite L; apply (perm_lt P E)).
  destruct (nth_error (numbers c) j) as [z|] eqn:Ez; [|apply nth_error_None in Ez; lia].
  exists z. split; [reflexivity|congruence].
Qed.

Lemma GeneralCell_new_canonical lat pos nums c : GeneralCell_new lat pos nums = Ok c ->
  canonical (positions c) /\ positions c <> [].
Proof.
  intros H. destruct (GeneralCell_new_inv _ _ _ H) as [N L]. rewrite GeneralCell_new_ok in H by assumption.
  injection H as <-. cbn. split.
  - apply sorted_positions_order.
  - intros E. apply (f_equal (@length _)) in E. rewrite sortp_length in E. destruct pos; [congruence|discriminate].
Qed.

(** ** Exact space groups *)
Lemma int_shift_refl p : int_shift p p.
Proof. exists 0%Z, 0%Z, 0%Z. destruct p; cbn. rewrite Zc_0. f_equal; ring. Qed.
Lemma int_shift_sym p q : int_shift p q -> int_shift q p.
Proof.
  intros [a [b [c ->]]]. exists (-a)%Z, (-b)%Z, (-c)%Z. destruct p; cbn. rewrite !Zc_opp. f_equal; ring.
Qed.
Lemma int_shift_trans p q r : int_shift p q -> int_shift q r -> int_shift p r.
Proof.
  intros [a [b [c ->]]] [a' [b' [c' ->]]]. exists (a+a')%Z, (b+b')%Z, (c+c')%Z. destruct p; cbn. rewrite !Zc_plus. f_equal; ring.
Qed.

Lemma op_image_shift r t p q : int_shift p q -> int_shift (op_image r t p) (op_image r t q).
Proof.
  intros [a [b [c ->]]].
  exists (vx (vx r) * a + vy (vx r) * b + vz (vx r) * c)%Z,
         (vx (vy r) * a + vy (vy r) * b + vz (vy r) * c)%Z,
         (vx (vz r) * a + vy (vz r) * b + vz (vz r) * c)%Z.
  unfold op_image; cbn. rewrite !Zc_plus, !Zc_mult. f_equal; ring.
Qed.

Lemma op_image_tshift r t t' p : int_shift t t' -> int_shift (op_image r t p) (op_image r t' p).
Proof. intros [a [b [c ->]]]. exists a, b, c. unfold op_image; cbn. f_equal; ring. Qed.

Lemma op_comp_image a b p : op_image (fst (op_comp a b)) (snd (op_comp a b)) p =
  op_image (fst a) (snd a) (op_image (fst b) (snd b) p).
Proof. unfold op_comp, op_image; cbn. rewrite !Zc_plus, !Zc_mult. f_equal; ring. Qed.

Lemma op_id_image p : op_image (fst op_id) (snd op_id) p = p.
Proof. destruct p. unfold op_id, op_image; cbn. change (Zc 1) with 1%Qc. change (Zc 0) with 0%Qc. f_equal; ring. Qed.

Lemma same_op_image a b p : same_op a b -> int_shift (op_image (fst a) (snd a) p) (op_image (fst b) (snd b) p).
Proof. intros [E H]. rewrite E. now apply op_image_tshift. Qed.

Lemma carries_to_exact ops pos o p q : NoDup (List.map tofrac pos) ->
  exact_space_group ops pos -> In o ops -> In p pos -> In q pos -> carries o p q -> carries_exactly o p q.
Proof.
  intros ND [_ [_ [_ X]]] Ho Hp Hq C. destruct (X o p Ho Hp) as [q' [Hq' C']].
  replace q with q'; [assumption|]. apply carries_exactly_carries in C' as C2. apply carries_iff in C, C2.
  apply In_nth_error in Hq, Hq'. destruct Hq as [i Hi], Hq' as [j Hj].
  assert (j = i) by (apply (distinct_pos ND Hj Hi); congruence). congruence.
Qed.

Lemma exact_maps_sites ops pos o : NoDup (List.map tofrac pos) ->
  exact_space_group ops pos -> In o ops -> maps_sites o pos.
Proof.
  intros ND E Ho. pose proof E as E'. destruct E' as [_ [_ [XI X]]]. split.
  - intros p Hp. destruct (X o p Ho Hp) as [q [Hq C]]. exists q. split; [assumption|]. now apply carries_exactly_carries.
  - intros q Hq. destruct (XI o Ho) as [b [Hb Sb]]. destruct (XI b Hb) as [b' [Hb' Sb']].
    destruct (X b q Hb Hq) as [p [Hp C]]. exists p. split; [assumption|]. apply carries_exactly_carries.
    (* o p ~ o (b q); b' (b x) ~ x, b (o x) ~ x  =>  o x ~ b' (b (o x)) ~ b' x *)
    unfold carries_exactly in *.
    assert (T1 : forall x, int_shift (op_image (fst b) (snd b) (op_image (fst o) (snd o) x)) x).
    { intros x. rewrite <- op_comp_image. rewrite <- (op_id_image x) at 2. now apply same_op_image. }
    assert (T2 : forall x, int_shift (op_image (fst b') (snd b') (op_image (fst b) (snd b) x)) x).
    { intros x. rewrite <- op_comp_image. rewrite <- (op_id_image x) at 2. now apply same_op_image. }
    assert (T3 : forall x, int_shift (op_image (fst o) (snd o) x) (op_image (fst b') (snd b') x)).
    { intros x. apply int_shift_trans with (op_image (fst b') (snd b') (op_image (fst b) (snd b) (op_image (fst o) (snd o) x))).
      - apply int_shift_sym, T2.
      - apply op_image_shift, T1. }
    apply int_shift_trans with (op_image (fst b') (snd b') p); [apply T3|].
    apply int_shift_trans with (op_image (fst b') (snd b') (op_image (fst b) (snd b) q)); [|apply T2].
    apply op_image_shift. now apply int_shift_sym.
Qed.

Lemma exact_ops_group ops pos : NoDup (List.map tofrac pos) -> exact_space_group ops pos -> ops_group ops pos.
Proof.
  intros ND E. pose proof E as E'. destruct E' as [XId [XC [XI X]]]. split; [|split].
  - destruct XId as [o [Ho S]]. exists o. split; [assumption|]. intros p Hp. apply carries_exactly_carries.
    unfold carries_exactly. apply int_shift_sym. rewrite <- (op_id_image p) at 1. now apply same_op_image.
  - intros o1 o2 H1 H2. destruct (XC o2 o1 H2 H1) as [o3 [H3 S]]. exists o3. split; [assumption|].
    intros p q s Hp Hq Hs C1 C2. apply (carries_to_exact ND E H1 Hp Hq) in C1. apply (carries_to_exact ND E H2 Hq Hs) in C2.
    apply carries_exactly_carries. unfold carries_exactly in *.
    apply int_shift_trans with (op_image (fst (op_comp o2 o1)) (snd (op_comp o2 o1)) p).
    + apply int_shift_sym. now apply same_op_image.
    + rewrite op_comp_image. eapply int_shift_trans; [|exact C2]. now apply op_image_shift.
  - intros o Ho. destruct (XI o Ho) as [b [Hb S]]. exists b. split; [assumption|]. intros p q Hp Hq C.
    apply (carries_to_exact ND E Ho Hp Hq) in C. apply carries_exactly_carries. unfold carries_exactly in *.
    apply int_shift_trans with (op_image (fst b) (snd b) (op_image (fst o) (snd o) p)).
    + apply op_image_shift. now apply int_shift_sym.
    + rewrite <- op_comp_image. rewrite <- (op_id_image p) at 2. now apply same_op_image.
Qed.

Lemma C14_exact ops c perms : canonical (positions c) -> distinct_sites (positions c) ->
  exact_space_group ops (positions c) -> get_symmetry_permutation ops c = Ok perms ->
  perm_group (length (positions c)) perms.
Proof.
  intros C ND E H. pose proof (proj1 (distinct_keys _) ND) as K. apply C14_lemma with (ops := ops); auto.
  - intros o Ho. eapply exact_maps_sites; eauto.
  - now apply exact_ops_group.
Qed.
