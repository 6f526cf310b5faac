(** C63, C64: tree search. *)
From Verif Require Import Base LBase BaseQ LQ MMcts SMcts.
Set Implicit Arguments.
Unset Strict Implicit.
Open Scope nat_scope.

Section L.
Context (A : Type) (aeq : forall a b : A, {a = b} + {a <> b}).
Notation heap := (heap A).
Notation node := (node A).

(** ** shape of the heap *)
Record shape (h : heap) (root : nat) : Prop := mkShape {
  sh_root : exists n, nth_error h root = Some n /\ n_parent n = None;
  sh_kids : forall i n a c, nth_error h i = Some n -> In (a, c) (n_children n) -> i < c < length h;
  sh_fst : forall i n, nth_error h i = Some n -> NoDup (map fst (n_children n));
  sh_snd : forall i n, nth_error h i = Some n -> NoDup (map snd (n_children n));
  sh_par : forall w i n a c nc, at_path h root w i -> nth_error h i = Some n -> In (a, c) (n_children n) ->
    nth_error h c = Some nc -> n_parent nc = Some i
}.

Lemma at_snoc (h : heap) r w a j : at_path h r (w ++ [a]) j <->
  exists i n, at_path h r w i /\ nth_error h i = Some n /\ In (a, j) (n_children n).
Proof.
  revert r. induction w as [|b w IH]; intros r; cbn [app].
  - split.
    + intros H. inversion H as [|? n ? c ? ? H1 H2 H3]; subst. inversion H3; subst. exists r, n. split; [constructor|auto].
    + intros [i [n [H [H1 H2]]]]. inversion H; subst. econstructor; [exact H1|exact H2|constructor].
  - split.
    + intros H. inversion H as [|? n ? c ? ? H1 H2 H3]; subst. apply IH in H3. destruct H3 as [i [m [K1 K2]]].
      exists i, m. split; [econstructor; eauto|assumption].
    + intros [i [n [H K]]]. inversion H as [|? m ? c ? ? H1 H2 H3]; subst. econstructor; [exact H1|exact H2|].
      apply IH. exists i, n. auto.
Qed.

Lemma at_app (h : heap) r w w' j : at_path h r (w ++ w') j <-> exists i, at_path h r w i /\ at_path h i w' j.
Proof.
  revert r. induction w as [|b w IH]; intros r; cbn [app].
  - split; [intros H; exists r; split; [constructor|assumption]|]. intros [i [H K]]. inversion H; subst. assumption.
  - split.
    + intros H. inversion H as [|? n ? c ? ? H1 H2 H3]; subst. apply IH in H3. destruct H3 as [i [K1 K2]]. exists i.
      split; [econstructor; eauto|assumption].
    + intros [i [H K]]. inversion H as [|? m ? c ? ? H1 H2 H3]; subst. econstructor; [exact H1|exact H2|]. apply IH. eauto.
Qed.

Section Shape.
Context (h : heap) (root : nat).
Hypothesis SH : shape h root.

Lemma at_bound w i : at_path h root w i -> root <= i < length h.
Proof.
  revert i. induction w as [|a w IH] using rev_ind; intros i H.
  - inversion H; subst. destruct (sh_root SH) as [n [E _]]. assert (i < length h) by (apply nth_error_Some; congruence). lia.
  - apply at_snoc in H. destruct H as [j [n [H [E K]]]]. apply IH in H. pose proof (sh_kids SH E K). lia.
Qed.

Lemma at_node w i : at_path h root w i -> exists n, nth_error h i = Some n.
Proof. intros H. apply at_bound in H. destruct (nth_error h i) eqn:E; [eauto|]. apply nth_error_None in E. lia. Qed.

Lemma at_fun w i j : at_path h root w i -> at_path h root w j -> i = j.
Proof.
  revert i j. induction w as [|a w IH] using rev_ind; intros i j H K.
  - inversion H; inversion K; congruence.
  - apply at_snoc in H, K. destruct H as [i' [n [H [E I]]]], K as [j' [m [K [F J]]]]. assert (i' = j') by eauto. subst j'.
    rewrite E in F. injection F as <-. pose proof (sh_fst SH E) as ND. clear - ND I J.
    induction (n_children n) as [|[b c] l IHl]; [destruct I|]. cbn in ND. inversion ND as [|? ? N1 N2]; subst.
    destruct I as [I|I], J as [J|J]; try congruence; auto.
    + injection I as -> ->. exfalso. apply N1. apply (in_map fst) in J. exact J.
    + injection J as -> ->. exfalso. apply N1. apply (in_map fst) in I. exact I.
Qed.

Lemma at_inj w w' i : at_path h root w i -> at_path h root w' i -> w = w'.
Proof.
  revert w' i. induction w as [|a w IH] using rev_ind; intros w' i H K.
  - inversion H; subst. destruct w' as [|b w' _] using rev_ind; [reflexivity|]. apply at_snoc in K.
    destruct K as [j [n [K1 [K2 K3]]]]. destruct (sh_root SH) as [m [E P]]. rewrite (sh_par SH K1 K2 K3 E) in P. discriminate.
  - destruct w' as [|b w' _] using rev_ind.
    + inversion K; subst. apply at_snoc in H. destruct H as [j [n [K1 [K2 K3]]]]. destruct (sh_root SH) as [m [E P]].
      rewrite (sh_par SH K1 K2 K3 E) in P. discriminate.
    + destruct (at_node H) as [m Em]. apply at_snoc in H, K.
      destruct H as [j [n [H1 [H2 H3]]]], K as [j' [n' [K1 [K2 K3]]]].
      pose proof (sh_par SH H1 H2 H3 Em) as P1. pose proof (sh_par SH K1 K2 K3 Em) as P2. assert (j = j') by congruence. subst j'.
      rewrite H2 in K2. injection K2 as <-. rewrite (IH w' j H1 K1). f_equal. f_equal.
      pose proof (sh_snd SH H2) as ND. clear - ND H3 K3.
      induction (n_children n) as [|[x c] l IHl]; [destruct H3|]. cbn in ND. inversion ND as [|? ? N1 N2]; subst.
      destruct H3 as [I|I], K3 as [J|J]; try congruence; auto.
      * injection I as -> ->. exfalso. apply N1. apply (in_map snd) in J. exact J.
      * injection J as -> ->. exfalso. apply N1. apply (in_map snd) in I. exact I.
Qed.
End Shape.

(** ** logs *)
Lemma starts_with_app w acts : starts_with aeq w acts = true <-> exists t, acts = w ++ t.
Proof.
  unfold starts_with. destruct (list_eq_dec aeq (firstn (length w) acts) w) as [E|N]; split; try discriminate; try easy.
  - intros _. exists (skipn (length w) acts). rewrite <- E at 1. symmetry. apply firstn_skipn.
  - intros [t ->]. exfalso. apply N. rewrite firstn_app, Nat.sub_diag, firstn_O, app_nil_r. apply firstn_all.
Qed.

Lemma through_app w (L L' : log) : through aeq w (L ++ L') = through aeq w L ++ through aeq w L'.
Proof. apply filter_app. Qed.

Lemma total_cons e (L : @log A) : total (e :: L) = (snd e + total L)%Qc.
Proof. reflexivity. Qed.
Lemma total_app (L L' : @log A) : total (L ++ L') = (total L + total L')%Qc.
Proof.
  induction L as [|e L IH]; cbn [app].
  - change (total (@nil (list A * Qc))) with (Zc 0). generalize (total L'). intros x. symmetry. exact (Qcplus_0_l x).
  - rewrite !total_cons, IH. ring.
Qed.

Lemma through_none w (L : log) h root : recorded h root L -> (forall i, ~ at_path h root w i) -> through aeq w L = [].
Proof.
  intros R N. unfold through. induction L as [|e L IH]; [reflexivity|]. cbn [filter].
  destruct (starts_with aeq w (fst e)) eqn:E.
  - exfalso. apply starts_with_app in E. destruct E as [t E]. destruct (R e (or_introl eq_refl)) as [i Hi]. rewrite E in Hi.
    apply at_app in Hi. destruct Hi as [j [Hj _]]. exact (N j Hj).
  - apply IH. intros e' He'. apply R. now right.
Qed.

(** ** expand *)
Record expanded (h0 h : heap) (self : nat) (n0 : node) : Prop := mkExp {
  ex_len : length h0 <= length h;
  ex_self : exists kids, nth_error h self = Some (set_children n0 kids) /\
    (forall a c, In (a, c) kids -> length h0 <= c < length h) /\ NoDup (map fst kids) /\ NoDup (map snd kids);
  ex_new : forall j, length h0 <= j < length h -> exists P, nth_error h j = Some (TreeNode_new A (Some self) P);
  ex_old : forall i, i < length h0 -> i <> self -> nth_error h i = nth_error h0 i
}.

Lemma child_In a kids c : child aeq a kids = Some c -> In (a, c) kids.
Proof.
  unfold child. destruct (find _ kids) as [[b d]|] eqn:F; [|discriminate]. intros E. injection E as <-.
  apply find_some in F. destruct F as [I F]. cbn in F. destruct (aeq b a); [subst; exact I|discriminate].
Qed.
Lemma child_None a kids : child aeq a kids = None <-> ~ In a (map fst kids).
Proof.
  unfold child. destruct (find _ kids) as [[b d]|] eqn:F.
  - split; [discriminate|]. intros N. exfalso. apply N. apply find_some in F. destruct F as [I F]. cbn in F.
    destruct (aeq b a); [subst|discriminate]. apply (in_map fst) in I. exact I.
  - split; [|reflexivity]. intros _ I. apply in_map_iff in I. destruct I as [[b d] [E I]]. cbn in E. subst b.
    pose proof (find_none _ _ F _ I) as K. cbn in K. destruct (aeq a a); [discriminate|contradiction].
Qed.

Lemma nodup_snoc T (l : list T) x : NoDup l -> ~ In x l -> NoDup (l ++ [x]).
Proof.
  intros ND N. induction l as [|y l IH]; cbn; [constructor; [easy|constructor]|].
  inversion ND; subst. constructor; [|apply IH; auto; intros K; apply N; now right].
  intros K. apply in_app_iff in K. destruct K as [K|[->|[]]]; [contradiction|]. apply N. now left.
Qed.

Lemma expand_spec h0 self n0 aps : self < length h0 -> forall h, expanded h0 h self n0 ->
  exists h', expand aeq h self aps = Ok h' /\ expanded h0 h' self n0 /\
    (forall kids, nth_error h self = Some (set_children n0 kids) ->
       exists kids', nth_error h' self = Some (set_children n0 kids') /\
         forall a, In a (map fst kids') <-> In a (map fst kids) \/ In a (map fst aps)).
Proof.
  intros Hs. induction aps as [|[a p] aps IH]; intros h EX; cbn [expand].
  - exists h. split; [reflexivity|]. split; [exact EX|]. intros kids E. exists kids. split; [exact E|]. cbn. tauto.
  - destruct (ex_self EX) as [kids [E [B [N1 N2]]]]. rewrite (proj2 (get_nth_ok _ _ _) E). cbn [bind n_children set_children].
    destruct (child aeq a kids) as [c|] eqn:C.
    + destruct (IH h EX) as [h' [E' [EX' K]]]. exists h'. split; [exact E'|]. split; [exact EX'|].
      intros kids2 E2. rewrite E in E2. injection E2 as <-. destruct (K kids E) as [k' [F G]]. exists k'. split; [exact F|].
      intros b. rewrite G. cbn [map fst In]. apply child_In in C. apply (in_map fst) in C. cbn in C. split; [tauto|]. intros [H|[<-|H]]; auto.
    + apply child_None in C. assert (Ls : self < length h) by (pose proof (ex_len EX); lia).
      rewrite set_nth_ok by exact Ls. cbn [bind].
      set (h1 := upd h self _ ++ [_]).
      assert (L1 : length h1 = S (length h)) by (unfold h1; rewrite app_length, upd_length; cbn; lia).
      assert (Eself : nth_error h1 self = Some (set_children n0 (kids ++ [(a, length h)]))).
      { unfold h1. rewrite nth_error_app1 by (rewrite upd_length; lia). rewrite nth_error_upd.
        rewrite Nat.eqb_refl. destruct (Nat.ltb_spec self (length h)); [reflexivity|lia]. }
      assert (EX1 : expanded h0 h1 self n0).
      { constructor.
        - pose proof (ex_len EX). lia.
        - exists (kids ++ [(a, length h)]). split; [exact Eself|]. split; [|split].
          + intros b c I. apply in_app_iff in I. rewrite L1. destruct I as [I|[I|[]]].
            * specialize (B b c I). lia.
            * injection I as <- <-. pose proof (ex_len EX). lia.
          + rewrite map_app. apply nodup_snoc; assumption.
          + rewrite map_app. apply nodup_snoc; [assumption|]. cbn. intros I. apply in_map_iff in I.
            destruct I as [[b c] [F I]]. cbn in F. subst c. specialize (B b _ I). lia.
        - intros j Hj. rewrite L1 in Hj. destruct (Nat.eq_dec j (length h)) as [->|Nj].
          + exists p. unfold h1. rewrite nth_error_app2 by (rewrite upd_length; lia). rewrite upd_length, Nat.sub_diag. reflexivity.
          + destruct (ex_new EX (j := j)) as [P F]; [lia|]. exists P. unfold h1. rewrite nth_error_app1 by (rewrite upd_length; lia).
            rewrite nth_error_upd. destruct (Nat.eqb_spec self j); [lia|exact F].
        - intros i Hi Ni. unfold h1. pose proof (ex_len EX). rewrite nth_error_app1 by (rewrite upd_length; lia).
          rewrite nth_error_upd. destruct (Nat.eqb_spec self i); [congruence|]. now apply (ex_old EX). }
      destruct (IH h1 EX1) as [h' [E' [EX' K]]]. exists h'. split; [exact E'|]. split; [exact EX'|].
      intros kids2 E2. rewrite E in E2. injection E2 as <-. destruct (K _ Eself) as [k' [F G]]. exists k'. split; [exact F|].
      intros b. rewrite G, map_app, in_app_iff. cbn [map fst In]. tauto.
Qed.
End L.
