(** Independence of the enumeration from the frame and from the order of the atoms. *)
From Coq Require Import String.
From Verif Require Import Base LBase BaseQ MGeneralCell SGeneralCell LGeneralCell MComb SSubst SSym MSogen LFilter SOcc SEnum LDup LLevels LMisc LSym LSymDec LSogen SRobust LRobust SChoice LChoice.
Set Implicit Arguments.
Unset Strict Implicit.
Open Scope list_scope.
Open Scope nat_scope.
Notation length := List.length.

Lemma Forall2_nthl A B (R : A -> B -> Prop) l l' i a : Forall2 R l l' -> nth_error l i = Some a -> exists b, nth_error l' i = Some b /\ R a b.
Proof. intros F. revert i. induction F; intros [|i]; cbn; try discriminate; [intros [= <-]; eauto|apply IHF]. Qed.

Lemma perm_inverse n s : Permutation s (seq 0 n) -> exists r, Permutation r (seq 0 n) /\
  (forall i j, nth_error s i = Some j -> nth_error r j = Some i) /\ (forall i j, nth_error r j = Some i -> nth_error s i = Some j).
Proof.
  intros P. assert (PICK : exists r, Forall2 (fun j i => i < n /\ nth_error s i = Some j) (seq 0 n) r).
  { assert (H : forall j, In j (seq 0 n) -> exists i, i < n /\ nth_error s i = Some j) by (intros j Hj; apply (perm_surj P); apply in_seq in Hj; lia).
    induction (seq 0 n) as [|j l IH] in H |- *; [exists []; constructor|]. destruct (H j) as [i Hi]; [now left|].
    destruct IH as [r Hr]; [intros k Hk; apply H; now right|]. exists (i :: r). now constructor. }
  destruct PICK as [r F]. assert (LR : length r = n) by (rewrite <- (Forall2_len F); apply seq_length). exists r.
  assert (B : forall i j, nth_error r j = Some i -> i < n /\ nth_error s i = Some j).
  { intros i j Hj. destruct (Forall2_nthr F Hj) as (j' & Hs & Li & E). rewrite nth_error_seq in Hs. destruct (Nat.ltb_spec j n); [|discriminate]. cbn in Hs. injection Hs as <-. auto. }
  split; [|split; [|intros i j H; now apply B]].
  - apply NoDup_Permutation_bis; [|rewrite seq_length; lia|].
    + apply NoDup_nth_error. intros j j' Hj E. destruct (nth_error r j) as [i|] eqn:Ej; [|apply nth_error_None in Ej; lia]. symmetry in E. apply B in Ej, E. destruct Ej, E. congruence.
    + intros i Hi. destruct (In_nth_error _ _ Hi) as [j Hj]. apply B in Hj. apply in_seq. lia.
  - intros i j E. assert (Lj := perm_lt P E). destruct (nth_error r j) as [i'|] eqn:Ej; [|apply nth_error_None in Ej; lia].
    destruct (B _ _ Ej) as [_ E']. f_equal. exact (perm_inj P E' E).
Qed.

(** *** substitutions under a renumbering of the sites *)
Lemma kfold_renumber n s init init' (P P' : nat -> Prop) k v x y : Permutation s (seq 0 n) -> length init = n -> reordered init s init' ->
  (forall i j, nth_error s i = Some j -> (P' i <-> P j)) -> (forall j, P j -> j < n) ->
  reordered x s y -> k_fold init P k v x -> k_fold init' P' k v y.
Proof.
  intros Ps Li RI PP PL R [S [[ND [LS HS]] [Lx Hx]]].
  destruct (@preimage_set n s S Ps ND) as [S' [ND' [LS' HS']]]; [auto|].
  exists S'. split.
  - split; [assumption|]. split; [congruence|]. intros i Hi. apply HS' in Hi. destruct Hi as [j [E Hj]]. apply (PP i j E). auto.
  - split; [rewrite (reordered_length R), (reordered_length RI); reflexivity|].
    intros i a Ha. rewrite (reordered_nth i RI) in Ha. rewrite (reordered_nth i R).
    destruct (nth_error s i) as [j|] eqn:E; [|discriminate]. destruct (Hx j a Ha) as [H1 H2]. split.
    + intros Hi. apply HS' in Hi. destruct Hi as [j' [E' Hj']]. rewrite E in E'. injection E' as <-. auto.
    + intros Hi. apply H2. intros Hj. apply Hi. apply HS'. eauto.
Qed.
Lemma two_fold_renumber n s init init' n1 v1 n2 v2 x y : Permutation s (seq 0 n) -> length init = n -> reordered init s init' ->
  reordered x s y -> two_fold init n1 v1 n2 v2 x -> two_fold init' n1 v1 n2 v2 y.
Proof.
  intros Ps Li RI R [S1 [S2 [[N1 [L1 P1]] [[N2 [L2 P2]] [D [Lx Hx]]]]]].
  unfold any_site in P1, P2. rewrite Li in P1, P2.
  destruct (preimage_set Ps N1 P1) as [S1' [N1' [L1' H1']]].
  destruct (preimage_set Ps N2 P2) as [S2' [N2' [L2' H2']]].
  exists S1', S2'. assert (LI' : length init' = n) by (rewrite (reordered_length RI); now apply perm_length).
  assert (B : forall i j, nth_error s i = Some j -> i < length init').
  { intros i j E. rewrite LI', <- (perm_length Ps). apply nth_error_Some. congruence. }
  split; [|split; [|split; [|split]]].
  - split; [assumption|]. split; [congruence|]. intros i Hi. apply H1' in Hi. destruct Hi as [j [E _]]. apply (B i j E).
  - split; [assumption|]. split; [congruence|]. intros i Hi. apply H2' in Hi. destruct Hi as [j [E _]]. apply (B i j E).
  - intros i Hi1 Hi2. apply H1' in Hi1. apply H2' in Hi2. destruct Hi1 as [j [E Hj]], Hi2 as [j' [E' Hj']].
    rewrite E in E'. injection E' as <-. exact (D j Hj Hj').
  - rewrite (reordered_length R), LI'. now apply perm_length.
  - intros i a Ha. rewrite (reordered_nth i RI) in Ha. rewrite (reordered_nth i R).
    destruct (nth_error s i) as [j|] eqn:E; [|discriminate]. destruct (Hx j a Ha) as [K1 [K2 K3]].
    split; [|split].
    + intros Hi. apply H1' in Hi. destruct Hi as [j' [E' Hj']]. rewrite E in E'. injection E' as <-. auto.
    + intros Hi. apply H2' in Hi. destruct Hi as [j' [E' Hj']]. rewrite E in E'. injection E' as <-. auto.
    + intros Hi1 Hi2. apply K3; intros Hj; [apply Hi1, H1'|apply Hi2, H2']; eauto.
Qed.

(** *** what the generator works with *)
Lemma generator_facts lat pos nums c ops wy o : length pos = length nums -> GeneralCell_new lat pos nums = Ok c -> distinct_sites (positions c) ->
  exact_space_group ops (positions c) -> species_kept ops (positions c) (numbers c) -> OccupyGenerator_new ops wy c = Ok o ->
  init_cell o = c /\ wyckoffs o = wy /\ from_constructor c /\ perm_group (length (numbers c)) (sym_perm o) /\ preserves (sym_perm o) (numbers c) /\
  length (positions c) = length (numbers c) /\
  forall x y, length x = length (numbers c) -> equivalent (sym_perm o) x y <-> geo_equivalent ops (positions c) x y.
Proof.
  intros L NEW DIS GRP KEEP ON.
  assert (S : forall o i j p q, In o ops -> nth_error (positions c) j = Some p -> nth_error (positions c) i = Some q -> carries o p q -> nth_error (numbers c) j = nth_error (numbers c) i).
  { intros o1 i j p q Ho Hp Hq C. apply (KEEP o1 i j p q Ho Hp Hq). exact (carries_to_exact (proj1 (distinct_keys _) DIS) GRP Ho (nth_error_In _ _ Hp) (nth_error_In _ _ Hq) C). }
  destruct (end_to_end L NEW DIS GRP S ON) as (I & FC & HG & PR). rewrite I in *.
  assert (LE : length (positions c) = length (numbers c)) by apply (from_constructor_facts FC).
  unfold OccupyGenerator_new in ON. destruct (get_symmetry_permutation ops c) as [perms|] eqn:EP; [|discriminate]. cbn in ON. injection ON as <-. cbn in *.
  repeat (split; [assumption || reflexivity|]). intros x y LX. apply (geo_perms NEW DIS GRP y EP). congruence.
Qed.

Section Frame.
Variables (A : mat Z * vec Qc) (c c' : gcell) (ops ops' : list (mat Z * vec Qc)).
Hypothesis FA : frame_change A.
Hypothesis DIS : distinct_sites (positions c).
Hypothesis DIS' : distinct_sites (positions c').
Hypothesis LEN : length (positions c) = length (numbers c).
Hypothesis LEN' : length (positions c') = length (numbers c').
Hypothesis ATOMS : same_atoms A (positions c) (numbers c) (positions c') (numbers c').
Hypothesis THERE : forall o, In o ops -> exists o', In o' ops' /\ rewritten A o o'.
Hypothesis BACK : forall o', In o' ops' -> exists o, In o ops /\ rewritten A o o'.

Lemma frame_inj p q : int_shift (op_image (fst A) (snd A) p) (op_image (fst A) (snd A) q) -> int_shift p q.
Proof.
  destruct FA as [B H]. intros S. apply (op_image_shift (fst B) (snd B)) in S. rewrite <- !op_comp_image in S.
  pose proof (same_op_image p H) as Hp. pose proof (same_op_image q H) as Hq.
  assert (I : forall r, op_image (fst op_id) (snd op_id) r = r).
  { intros [x y z]. unfold op_id, op_image, v0. cbn [fst snd vx vy vz]. f_equal; change (Zc 1) with 1%Qc; change (Zc 0) with 0%Qc; ring. }
  rewrite I in Hp, Hq. eapply int_shift_trans; [apply int_shift_sym; exact Hp|]. eapply int_shift_trans; [exact S|exact Hq].
Qed.
Lemma rewritten_carries o o' p q p' q' : rewritten A o o' -> carries_exactly A p p' -> carries_exactly A q q' ->
  carries_exactly o p q <-> carries_exactly o' p' q'.
Proof.
  unfold carries_exactly, rewritten. intros R Hp Hq. pose proof (same_op_image p R) as S. rewrite !op_comp_image in S.
  pose proof (op_image_shift (fst o') (snd o') Hp) as S'. split; intros K.
  - eapply int_shift_trans; [apply int_shift_sym; exact S'|]. eapply int_shift_trans; [exact S|].
    eapply int_shift_trans; [apply op_image_shift; exact K|exact Hq].
  - apply frame_inj. eapply int_shift_trans; [apply int_shift_sym; exact S|]. eapply int_shift_trans; [exact S'|].
    eapply int_shift_trans; [exact K|]. apply int_shift_sym. exact Hq.
Qed.

(** The site of [c] found on site i of [c']. *)
Lemma site_map : exists s, Permutation s (seq 0 (length (positions c))) /\
  (forall i j, nth_error s i = Some j -> exists p q, nth_error (positions c) j = Some p /\ nth_error (positions c') i = Some q /\ carries_exactly A p q) /\
  (forall i j p q, nth_error (positions c) j = Some p -> nth_error (positions c') i = Some q -> carries_exactly A p q -> nth_error s i = Some j) /\
  reordered (numbers c) s (numbers c').
Proof.
  destruct ATOMS as (atoms & PM & F).
  assert (LA : length (positions c') = length (positions c)).
  { pose proof (Forall2_len F) as L. rewrite <- (Permutation_length PM), !combine_length in L. lia. }
  (* pick indices *)
  assert (IN : forall a, In a atoms -> exists j, nth_error (positions c) j = Some (fst a) /\ nth_error (numbers c) j = Some (snd a)).
  { intros a Ha. apply (Permutation_in _ (Permutation_sym PM)) in Ha. destruct (In_nth_error _ _ Ha) as [j Hj]. exists j. clear - Hj.
    revert j Hj. generalize (positions c) as ps, (numbers c) as ns. induction ps as [|p ps IH]; intros [|n ns] [|j] Hj; cbn in Hj; try discriminate.
    - injection Hj as <-. split; reflexivity.
    - apply (IH ns j Hj). }
  assert (PICK : exists s, Forall2 (fun j a => nth_error (positions c) j = Some (fst a) /\ nth_error (numbers c) j = Some (snd a)) s atoms).
  { clear - IN. induction atoms as [|a l IH]; [exists []; constructor|]. destruct (IN a) as [j Hj]; [now left|].
    destruct IH as [s Hs]; [intros b Hb; apply IN; now right|]. exists (j :: s). now constructor. }
  destruct PICK as [s FS]. exists s.
  assert (LS : length s = length (positions c)). { rewrite (Forall2_len FS), <- (Permutation_length PM), combine_length. lia. }
  assert (SI : forall i j, nth_error s i = Some j -> exists p q n, nth_error (positions c) j = Some p /\ nth_error (positions c') i = Some q /\ carries_exactly A p q /\
     nth_error (numbers c) j = Some n /\ nth_error (numbers c') i = Some n).
  { intros i j Hi. destruct (Forall2_nthl FS Hi) as (a & Ha & Hp & Hn). destruct (Forall2_nthl F Ha) as ([q n] & Hb & Ca & Sn). cbn in *.
    assert (CB : forall i, nth_error (combine (positions c') (numbers c')) i = Some (q, n) -> nth_error (positions c') i = Some q /\ nth_error (numbers c') i = Some n).
    { clear. generalize (positions c') as ps, (numbers c') as ns. induction ps as [|p ps IH]; intros [|m ns] [|k] Hk; cbn in Hk; try discriminate.
      - injection Hk as <- <-. split; reflexivity.
      - apply (IH ns k Hk). }
    destruct (CB i Hb) as [B1 B2]. exists (fst a), q, n. rewrite <- Sn in *. auto. }
  pose proof (proj1 (distinct_keys _) DIS) as ND. pose proof (proj1 (distinct_keys _) DIS') as ND'.
  assert (NK : forall (ps : list (vec Qc)) i i' p q, NoDup (map tofrac ps) -> nth_error ps i = Some p -> nth_error ps i' = Some q -> int_shift p q -> i = i').
  { clear. intros ps i i' p q N Hp Hq S. apply (proj1 (NoDup_nth_error _) N).
    - rewrite map_length. apply nth_error_Some. congruence.
    - rewrite !nth_error_map, Hp, Hq. cbn. f_equal. symmetry. now apply tofrac_shift. }
  assert (UN : forall i j p q, nth_error (positions c) j = Some p -> nth_error (positions c') i = Some q -> carries_exactly A p q -> nth_error s i = Some j).
  { intros i j p q Hp Hq C. destruct (nth_error s i) as [j'|] eqn:E.
    - destruct (SI i j' E) as (p' & q' & n & Hp' & Hq' & C' & _). assert (q' = q) by congruence. subst q'. f_equal.
      apply (NK (positions c) j' j p' p ND Hp' Hp). apply frame_inj. eapply int_shift_trans; [exact C'|apply int_shift_sym; exact C].
    - apply nth_error_None in E. assert (i < length (positions c')) by (apply nth_error_Some; congruence). lia. }
  split; [|split; [|split; [exact UN|]]].
  - apply NoDup_Permutation_bis; [|rewrite seq_length, LS; lia|].
    + apply NoDup_nth_error. intros i i' Hi E. destruct (nth_error s i) as [j|] eqn:Ei; [|apply nth_error_None in Ei; lia]. symmetry in E.
      destruct (SI i j Ei) as (p & q & n & Hp & Hq & C & _). destruct (SI i' j E) as (p' & q' & n' & Hp' & Hq' & C' & _).
      assert (p' = p) by congruence. subst p'. apply (NK (positions c') i i' q q' ND' Hq Hq'). eapply int_shift_trans; [apply int_shift_sym; exact C|exact C'].
    + intros j Hj. destruct (In_nth_error _ _ Hj) as [i Hi]. destruct (SI i j Hi) as (p & q & n & Hp & _). apply in_seq.
      assert (j < length (positions c)) by (apply nth_error_Some; congruence). lia.
  - intros i j Hi. destruct (SI i j Hi) as (p & q & n & Hp & Hq & C & _). eauto.
  - apply reordered_intro; [lia|]. intros i j E. destruct (SI i j E) as (p & q & n & _ & _ & _ & H1 & H2). eauto.
Qed.

Lemma carried_iff s x y :
  Permutation s (seq 0 (length (positions c))) ->
  (forall i j, nth_error s i = Some j -> exists p q, nth_error (positions c) j = Some p /\ nth_error (positions c') i = Some q /\ carries_exactly A p q) ->
  (forall i j p q, nth_error (positions c) j = Some p -> nth_error (positions c') i = Some q -> carries_exactly A p q -> nth_error s i = Some j) ->
  length x = length (positions c) -> reordered x s y <-> carried_over A (positions c) (positions c') x y.
Proof.
  intros Ps S1 S2 LX. split.
  - intros R. split; [rewrite (reordered_length R), (perm_length Ps); auto|]. intros i j p q Hp Hq C. rewrite (reordered_nth i R), (S2 i j p q Hp Hq C). reflexivity.
  - intros [LY H]. apply reordered_intro; [rewrite LY, (perm_length Ps); auto|]. intros i j E. destruct (S1 i j E) as (p & q & Hp & Hq & C).
    rewrite (H i j p q Hp Hq C). destruct (nth_error x j) eqn:Ej; [eauto|]. apply nth_error_None in Ej. pose proof (perm_lt Ps E). lia.
Qed.
Lemma geo_carried s x y x' y' :
  Permutation s (seq 0 (length (positions c))) ->
  (forall i j, nth_error s i = Some j -> exists p q, nth_error (positions c) j = Some p /\ nth_error (positions c') i = Some q /\ carries_exactly A p q) ->
  (forall i j p q, nth_error (positions c) j = Some p -> nth_error (positions c') i = Some q -> carries_exactly A p q -> nth_error s i = Some j) ->
  length (positions c') = length (positions c) -> length x = length (positions c) -> length y = length (positions c) -> reordered x s x' -> reordered y s y' ->
  geo_equivalent ops (positions c) x y <-> geo_equivalent ops' (positions c') x' y'.
Proof.
  intros Ps S1 S2 LP LX LY RX RY.
  assert (LX' : length x' = length (positions c)) by (rewrite (reordered_length RX); now apply perm_length).
  assert (LY' : length y' = length (positions c)) by (rewrite (reordered_length RY); now apply perm_length).
  assert (TOT : forall i q, nth_error (positions c') i = Some q -> exists j p, nth_error s i = Some j /\ nth_error (positions c) j = Some p /\ carries_exactly A p q).
  { intros i q Hq. destruct (nth_error s i) as [j|] eqn:E; [|apply nth_error_None in E; rewrite (perm_length Ps) in E; assert (i < length (positions c')) by (apply nth_error_Some; congruence); lia].
    destruct (S1 i j E) as (p & q' & Hp & Hq' & C). assert (q' = q) by congruence. subst. eauto. }
  split.
  - intros (_ & o & Ho & H). split; [congruence|]. destruct (THERE Ho) as (o' & Ho' & RW). exists o'. split; [exact Ho'|].
    intros i j p' q' Hp' Hq' C. destruct (TOT j p' Hp') as (j0 & p & Ej & Hp & Cp). destruct (TOT i q' Hq') as (i0 & q & Ei & Hq & Cq).
    rewrite (reordered_nth i RY), Ei, (reordered_nth j RX), Ej. apply (H i0 j0 p q Hp Hq). exact (proj2 (rewritten_carries RW Cp Cq) C).
  - intros (_ & o' & Ho' & H). split; [congruence|]. destruct (BACK Ho') as (o & Ho & RW). exists o. split; [exact Ho|].
    intros i j p q Hp Hq C. assert (Lj : j < length (positions c)) by (apply nth_error_Some; congruence). assert (Li : i < length (positions c)) by (apply nth_error_Some; congruence).
    destruct (perm_surj Ps Lj) as (j1 & _ & Ej). destruct (perm_surj Ps Li) as (i1 & _ & Ei).
    destruct (S1 j1 j Ej) as (p0 & p' & Hp0 & Hp' & Cp). destruct (S1 i1 i Ei) as (q0 & q' & Hq0 & Hq' & Cq).
    assert (p0 = p) by congruence. assert (q0 = q) by congruence. subst p0 q0.
    pose proof (H i1 j1 p' q' Hp' Hq' (proj1 (rewritten_carries RW Cp Cq) C)) as K. rewrite (reordered_nth i1 RY), Ei, (reordered_nth j1 RX), Ej in K. exact K.
Qed.

(** Two transversals, one in each frame. *)
Lemma frame_match (D D' : list Z -> Prop) l l' :
  length (positions c') = length (positions c) ->
  (forall s x y, Permutation s (seq 0 (length (positions c))) -> reordered (numbers c) s (numbers c') ->
     (forall i j, nth_error s i = Some j -> exists p q, nth_error (positions c) j = Some p /\ nth_error (positions c') i = Some q /\ carries_exactly A p q) ->
     reordered x s y -> length x = length (positions c) -> (D x <-> D' y)) ->
  (forall x, D x -> length x = length (positions c)) -> (forall x, D' x -> length x = length (positions c)) ->
  (forall x y, D' x -> geo_equivalent ops' (positions c') x y -> geo_equivalent ops' (positions c') y x) ->
  (forall x y z, D' x -> geo_equivalent ops' (positions c') x y -> geo_equivalent ops' (positions c') y z -> geo_equivalent ops' (positions c') x z) ->
  transversal (geo_equivalent ops (positions c)) D l -> transversal (geo_equivalent ops' (positions c')) D' l' ->
  same_classes (fun x y => exists z, carried_over A (positions c) (positions c') x z /\ geo_equivalent ops' (positions c') z y) l l'.
Proof.
  intros LP DD LD LD' SY TR T T'. destruct site_map as (s & Ps & S1 & S2 & RN). destruct (perm_inverse Ps) as (r & Pr & I1 & I2).
  assert (AP : forall x, length x = length (positions c) -> reordered x s (act_perm x s)) by (intros x LX; now apply (act_perm_reordered Ps)).
  assert (TM : transversal (geo_equivalent ops' (positions c')) D' (map (fun x => act_perm x s) l)).
  { apply (transversal_map (E := geo_equivalent ops (positions c)) (D := D)); [| | |exact T].
    - intros x Dx. apply (DD s x _ Ps RN S1 (AP x (LD x Dx)) (LD x Dx)). exact Dx.
    - intros y Dy. assert (LY := LD' y Dy). pose proof (act_perm_reordered Pr LY) as RY.
      assert (LX : length (act_perm y r) = length (positions c)) by (apply (act_perm_length y Pr)).
      assert (BK : reordered (act_perm y r) s y) by (apply (reordered_inv Pr Ps LY); auto; intros i j; apply I2).
      exists (act_perm y r). split; [now apply (DD s _ y Ps RN S1 BK LX)|]. exact (reordered_fun (AP _ LX) BK).
    - intros x y Dx Dy. apply (geo_carried Ps S1 S2 LP (LD x Dx) (LD y Dy) (AP x (LD x Dx)) (AP y (LD y Dy))). }
  destruct (transversal_match SY TR TM T') as (l2 & P2 & F2). exists l2. split; [exact P2|].
  assert (CO : forall x, D x -> carried_over A (positions c) (positions c') x (act_perm x s)) by (intros x Dx; apply (carried_iff _ Ps S1 S2 (LD x Dx)); auto).
  destruct T as (Fl & _). clear - F2 Fl CO. revert l2 F2. induction Fl as [|x l Dx Fl IH]; cbn; intros l2 F2; inversion F2 as [|a y l0 l1 K F]; subst; constructor; [|now apply IH].
  exists (act_perm x s). auto.
Qed.
End Frame.

Lemma sound_facts ops wy c o : sound_input ops wy c o ->
  init_cell o = c /\ wyckoffs o = wy /\ from_constructor c /\ perm_group (length (numbers c)) (sym_perm o) /\ preserves (sym_perm o) (numbers c) /\
  length (positions c) = length (numbers c) /\
  forall x y, length x = length (numbers c) -> equivalent (sym_perm o) x y <-> geo_equivalent ops (positions c) x y.
Proof. intros ((lat & pos & nums & L & NEW) & DIS & GRP & KEEP & ON). exact (generator_facts L NEW DIS GRP KEEP ON). Qed.

Lemma crystal_match A ops wy c o ops' wy' c' o' (D D' : list Z -> Prop) l l' :
  sound_input ops wy c o -> sound_input ops' wy' c' o' -> same_crystal_in A ops c ops' c' ->
  (forall s x y, Permutation s (seq 0 (length (numbers c))) -> reordered (numbers c) s (numbers c') ->
     (forall i j, nth_error s i = Some j -> exists p q, nth_error (positions c) j = Some p /\ nth_error (positions c') i = Some q /\ carries_exactly A p q) ->
     reordered x s y -> length x = length (numbers c) -> (D x <-> D' y)) ->
  (forall x, D x -> length x = length (numbers c)) -> (forall x, D' x -> length x = length (numbers c')) ->
  transversal (equivalent (sym_perm o)) D l -> transversal (equivalent (sym_perm o')) D' l' ->
  same_classes (same_decoration A c ops' c') l l'.
Proof.
  intros SI SI' (FA & AT & TH & BK) DD LD LD' T T'.
  destruct (sound_facts SI) as (_ & _ & _ & HG & _ & LE & GE). destruct (sound_facts SI') as (_ & _ & _ & HG' & _ & LE' & GE').
  destruct SI as (_ & DIS & _). destruct SI' as (_ & DIS' & _).
  assert (LP : length (positions c') = length (positions c)).
  { destruct AT as (atoms & PM & F). pose proof (Forall2_len F) as L. rewrite <- (Permutation_length PM), !combine_length in L. lia. }
  unfold same_decoration. apply (frame_match FA DIS DIS' LE LE' AT TH BK (D := D) (D' := D')); auto.
  - intros s x y Ps RN S1 R LX. apply (DD s); auto; congruence.
  - intros x Dx. rewrite LE. auto.
  - intros x Dx. rewrite <- LP, LE'. auto.
  - intros x y Dx E. pose proof (LD' x Dx) as LX. apply GE' in E; [|exact LX]. apply GE'; [now rewrite (equivalent_length HG' E)|]. now apply (equivalent_sym HG' LX).
  - intros x y z Dx E F. pose proof (LD' x Dx) as LX. apply GE' in E; [|exact LX]. apply GE' in F; [|now rewrite (equivalent_length HG' E)].
    apply GE'; [exact LX|]. exact (equivalent_trans HG' LX E F).
  - refine (transversal_rel _ T). intros x y Dx. apply GE. auto.
  - refine (transversal_rel _ T'). intros x y Dx. apply GE'. auto.
Qed.
Lemma kfold_iff A c c' (P P' : nat -> Prop) k v s x y : length (numbers c) = length (numbers c') ->
  (forall i j p q, nth_error (positions c) j = Some p -> nth_error (positions c') i = Some q -> carries_exactly A p q -> (P' i <-> P j)) ->
  (forall j, P j -> j < length (numbers c)) -> (forall j, P' j -> j < length (numbers c)) ->
  Permutation s (seq 0 (length (numbers c))) -> reordered (numbers c) s (numbers c') ->
  (forall i j, nth_error s i = Some j -> exists p q, nth_error (positions c) j = Some p /\ nth_error (positions c') i = Some q /\ carries_exactly A p q) ->
  reordered x s y -> length x = length (numbers c) -> (k_fold (numbers c) P k v x <-> k_fold (numbers c') P' k v y).
Proof.
  intros LL PP PL PL' Ps RN S1 R LX. assert (PS : forall i j, nth_error s i = Some j -> (P' i <-> P j)).
  { intros i j E. destruct (S1 i j E) as (p & q & Hp & Hq & C). now apply (PP i j p q). }
  split; [now apply (kfold_renumber Ps eq_refl RN PS PL R)|]. destruct (perm_inverse Ps) as (r & Pr & I1 & I2).
  apply (kfold_renumber Pr (eq_sym LL) (reordered_inv Ps Pr eq_refl I1 RN)); [|exact PL'|exact (reordered_inv Ps Pr LX I1 R)].
  intros j i E. symmetry. apply PS. now apply I2.
Qed.
Lemma two_fold_iff n1 v1 n2 v2 c c' s x y : length (numbers c) = length (numbers c') ->
  Permutation s (seq 0 (length (numbers c))) -> reordered (numbers c) s (numbers c') ->
  reordered x s y -> length x = length (numbers c) -> (two_fold (numbers c) n1 v1 n2 v2 x <-> two_fold (numbers c') n1 v1 n2 v2 y).
Proof.
  intros LL Ps RN R LX. split; [now apply (two_fold_renumber Ps eq_refl RN R)|]. destruct (perm_inverse Ps) as (r & Pr & I1 & I2).
  apply (two_fold_renumber Pr (eq_sym LL) (reordered_inv Ps Pr eq_refl I1 RN)). exact (reordered_inv Ps Pr LX I1 R).
Qed.
Lemma crystal_sizes A ops c ops' c' : length (positions c) = length (numbers c) -> length (positions c') = length (numbers c') ->
  same_crystal_in A ops c ops' c' -> length (numbers c) = length (numbers c').
Proof.
  intros LE LE' (_ & (atoms & PM & F) & _). pose proof (Forall2_len F) as L. rewrite <- (Permutation_length PM), !combine_length in L. lia.
Qed.
Lemma crystal_numbers A ops wy c o ops' wy' c' o' : sound_input ops wy c o -> sound_input ops' wy' c' o' -> same_crystal_in A ops c ops' c' ->
  forall i j p q, nth_error (positions c) j = Some p -> nth_error (positions c') i = Some q -> carries_exactly A p q -> nth_error (numbers c') i = nth_error (numbers c) j.
Proof.
  intros SI SI' (FA & AT & TH & BK). destruct (sound_facts SI) as (_ & _ & _ & _ & _ & LE & _). destruct (sound_facts SI') as (_ & _ & _ & _ & _ & LE' & _).
  destruct SI as (_ & DIS & _). destruct SI' as (_ & DIS' & _). destruct (site_map FA DIS DIS' LE LE' AT) as (s & _ & _ & S2 & RN).
  intros i j p q Hp Hq C. rewrite (reordered_nth i RN), (S2 i j p q Hp Hq C). reflexivity.
Qed.

Section Gens.
Variables (A : mat Z * vec Qc) (ops : list (mat Z * vec Qc)) (wy : list string) (c : gcell) (o : occ) (ops' : list (mat Z * vec Qc)) (wy' : list string) (c' : gcell) (o' : occ).
Hypothesis SI : sound_input ops wy c o.
Hypothesis SI' : sound_input ops' wy' c' o'.
Hypothesis SC : same_crystal_in A ops c ops' c'.
Variables (h h' : list Z -> Z).
Lemma frame_unitary n sp : collision_free h (k_fold (numbers c) (any_site (numbers c)) n sp) -> collision_free h' (k_fold (numbers c') (any_site (numbers c')) n sp) ->
  same_classes (same_decoration A c ops' c') (map numbers (items (gen_nodup_unitary h o (Z.of_nat n) sp))) (map numbers (items (gen_nodup_unitary h' o' (Z.of_nat n) sp))).
Proof.
  intros CF CF'. destruct (sound_facts SI) as (I & _ & FC & HG & PR & LE & _). destruct (sound_facts SI') as (I' & _ & FC' & HG' & PR' & LE' & _).
  pose proof (crystal_sizes LE LE' SC) as LL. rewrite <- I in FC, HG, PR, CF. rewrite <- I' in FC', HG', PR', CF'.
  destruct (C19_unitary FC HG PR CF) as (_ & _ & T). destruct (C19_unitary FC' HG' PR' CF') as (_ & _ & T'). rewrite I in T. rewrite I' in T'.
  refine (crystal_match SI SI' SC _ _ _ T T'); [|intros x Dx; exact (kfold_length Dx)..].
  intros s x y Ps RN S1 R LX. apply (kfold_iff n sp LL (A := A) (s := s)); auto.
  - intros i j p q Hp Hq _. unfold any_site. rewrite <- LE, <- LE'. split; intros _; apply nth_error_Some; congruence.
  - unfold any_site. intros j. lia.
Qed.
Lemma frame_element ele n sp : collision_free h (k_fold (numbers c) (site_holds (numbers c) ele) n sp) -> collision_free h' (k_fold (numbers c') (site_holds (numbers c') ele) n sp) ->
  same_classes (same_decoration A c ops' c') (map numbers (items (gen_nodup_of_ele h o ele (Z.of_nat n) sp))) (map numbers (items (gen_nodup_of_ele h' o' ele (Z.of_nat n) sp))).
Proof.
  intros CF CF'. destruct (sound_facts SI) as (I & _ & FC & HG & PR & LE & _). destruct (sound_facts SI') as (I' & _ & FC' & HG' & PR' & LE' & _).
  pose proof (crystal_sizes LE LE' SC) as LL. rewrite <- I in FC, HG, PR, CF. rewrite <- I' in FC', HG', PR', CF'.
  destruct (C19_ele FC HG PR CF) as (_ & _ & T). destruct (C19_ele FC' HG' PR' CF') as (_ & _ & T'). rewrite I in T. rewrite I' in T'.
  refine (crystal_match SI SI' SC _ _ _ T T'); [|intros x Dx; exact (kfold_length Dx)..].
  intros s x y Ps RN S1 R LX. apply (kfold_iff n sp LL (A := A) (s := s)); auto.
  - intros i j p q Hp Hq C. unfold site_holds. rewrite (crystal_numbers SI SI' SC Hp Hq C). tauto.
  - intros j. apply holds_lt.
  - intros j Hj. rewrite LL. exact (holds_lt Hj).
Qed.
Lemma frame_wyckoff w n sp : length wy = length (numbers c) -> length wy' = length (numbers c') -> preserves (sym_perm o) wy -> preserves (sym_perm o') wy' ->
  (forall i j p q, nth_error (positions c) j = Some p -> nth_error (positions c') i = Some q -> carries_exactly A p q -> nth_error wy' i = nth_error wy j) ->
  collision_free h (k_fold (numbers c) (site_letter wy w) n sp) -> collision_free h' (k_fold (numbers c') (site_letter wy' w) n sp) ->
  same_classes (same_decoration A c ops' c') (map numbers (items (gen_nodup h o w (Z.of_nat n) sp))) (map numbers (items (gen_nodup h' o' w (Z.of_nat n) sp))).
Proof.
  intros LW LW' PW PW' CW CF CF'. destruct (sound_facts SI) as (I & J & FC & HG & PR & LE & _). destruct (sound_facts SI') as (I' & J' & FC' & HG' & PR' & LE' & _).
  pose proof (crystal_sizes LE LE' SC) as LL. rewrite <- J in LW, PW, CF. rewrite <- J' in LW', PW', CF'. rewrite <- I in FC, HG, PR, CF, LW. rewrite <- I' in FC', HG', PR', CF', LW'.
  destruct (C19_wy FC HG PR LW PW CF) as (_ & _ & T). destruct (C19_wy FC' HG' PR' LW' PW' CF') as (_ & _ & T').
  assert (LT := fun j => @letter_lt o w j LW). assert (LT' := fun j => @letter_lt o' w j LW'). rewrite I in T, LT. rewrite I' in T', LT'. rewrite J in T, LT. rewrite J' in T', LT'.
  refine (crystal_match SI SI' SC _ _ _ T T'); [|intros x Dx; exact (kfold_length Dx)..].
  intros s x y Ps RN S1 R LX. apply (kfold_iff n sp LL (A := A) (s := s)); auto.
  - intros i j p q Hp Hq C. unfold site_letter. rewrite (CW i j p q Hp Hq C). tauto.
  - intros j Hj. rewrite LL. auto.
Qed.
Lemma frame_ternary n1 v1 n2 v2 : collision_free h (two_fold (numbers c) n1 v1 n2 v2) -> collision_free h' (two_fold (numbers c') n1 v1 n2 v2) ->
  same_classes (same_decoration A c ops' c') (map numbers (items (gen_nodup_trinary_alloy h o v1 (Z.of_nat n1) v2 (Z.of_nat n2))))
    (map numbers (items (gen_nodup_trinary_alloy h' o' v1 (Z.of_nat n1) v2 (Z.of_nat n2)))).
Proof.
  intros CF CF'. destruct (sound_facts SI) as (I & _ & FC & HG & PR & LE & _). destruct (sound_facts SI') as (I' & _ & FC' & HG' & PR' & LE' & _).
  pose proof (crystal_sizes LE LE' SC) as LL. rewrite <- I in FC, HG, PR, CF. rewrite <- I' in FC', HG', PR', CF'.
  destruct (C20_lemma FC HG PR CF) as (_ & _ & T). destruct (C20_lemma FC' HG' PR' CF') as (_ & _ & T'). rewrite I in T. rewrite I' in T'.
  refine (crystal_match SI SI' SC _ _ _ T T').
  - intros s x y Ps RN S1 R LX. exact (two_fold_iff n1 v1 n2 v2 LL Ps RN R LX).
  - intros x (? & ? & _ & _ & _ & LX & _). exact LX.
  - intros x (? & ? & _ & _ & _ & LX & _). exact LX.
Qed.
End Gens.
