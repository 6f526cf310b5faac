(** C24: sessions deliver the eager level lists whatever the interleaving. *)
From Verif Require Import Base LBase BaseQ MGeneralCell SGeneralCell LGeneralCell MComb SSubst LComb SSym LSym MSogen LFilter SOcc LDup LLevels MTee STee.
Set Implicit Arguments.
Unset Strict Implicit.
Open Scope nat_scope.

Section Tee.
Context (h : list Z -> Z) (perms : list (list nat)) (v : Z) (cond : nat -> Z -> bool) (c0 : gcell).
Hypothesis FC : from_constructor c0.
Let n := length (numbers c0).
Hypothesis HP : forall p, In p perms -> Permutation p (seq 0 n).

Definition gcell_ok (c : gcell) : Prop := exists x, length x = n /\ c = cellof c0 x.

Definition good (s : gstate) : Prop :=
  (forall c, g_reg s = Some c -> gcell_ok c) /\
  (forall c es, g_cur s = Some (c, es) -> gcell_ok c /\ forall i a, In (i, a) es -> i < n).

(** What the add-one generator still delivers from database [db], current cell and input [l]. *)
Definition add_rest (db : list Z) (cur : option (gcell * list (nat * Z))) (l : list gcell) : list gcell :=
  match cur with
  | None => items (add_one_outer h v cond db l None)
  | Some (c, es) =>
      let '(l1, db', _) := add_one_inner h c v cond db es in
      l1 ++ items (add_one_outer h v cond db' l None)
  end.

Definition reg_iso (s : gstate) : list Z :=
  match g_reg s with
  | None => g_iso s
  | Some c => match update_isoset h (g_iso s) (numbers c) perms with Ok iso => iso | Raise _ => [] end
  end.
Definition reg_db (s : gstate) : list Z :=
  match g_dbreg s with None => g_db s | Some z => z :: g_db s end.

(** What the suspended generator still delivers. *)
Definition denote (s : gstate) (l : list gcell) : list gcell :=
  if g_done s then []
  else items (nodup_loop h perms (fun c => c) (reg_iso s) (add_rest (reg_db s) (g_cur s) l) None).

Definition mu (s : gstate) : nat :=
  (match g_reg s with Some _ => 1 | None => 0 end) +
  (match g_dbreg s with Some _ => 1 | None => 0 end) +
  (match g_cur s with None => 0 | Some (_, es) => S (2 * length es) end).

Lemma gcell_ok_numbers c : gcell_ok c -> length (numbers c) = n.
Proof. intros [x [L ->]]. exact L. Qed.

Lemma inner_ok c es db : gcell_ok c -> (forall i a, In (i, a) es -> i < n) ->
  exists l db', add_one_inner h c v cond db es = (l, db', None) /\ (forall d, In d l -> gcell_ok d).
Proof.
  intros [x [L ->]] HE. destruct (add_one_inner_spec h v cond FC db L HE) as [l [db' [E [H1 _]]]].
  exists l, db'. split; [exact E|]. intros d Hd. destruct (H1 d Hd) as [i [a [_ [_ ->]]]].
  exists (upd x i v). split; [now rewrite upd_length|reflexivity].
Qed.

Lemma outer_cons db c l : gcell_ok c ->
  items (add_one_outer h v cond db (c :: l) None) = add_rest db (Some (c, enumerate (numbers c))) l.
Proof.
  intros H. cbn [add_one_outer add_rest].
  destruct (@inner_ok c (enumerate (numbers c)) db H) as [l1 [db' [E _]]].
  { intros i a K. apply In_enumerate in K. rewrite <- (gcell_ok_numbers H). apply nth_error_Some. congruence. }
  rewrite E. reflexivity.
Qed.

Lemma step_facts s l : good s -> Forall gcell_ok l ->
  match gstep h perms v cond s with
  | AReturn => denote s l = []
  | ARaise _ => False
  | ATau s' => good s' /\ denote s l = denote s' l /\ mu s' < mu s
  | AYield c s' => good s' /\ denote s l = c :: denote s' l /\ gcell_ok c
  | APull g => denote s [] = [] /\
      match l with [] => True | x :: l' => good (g x) /\ denote s l = denote (g x) l' end
  end.
Proof.
  intros [G1 G2] HL. unfold gstep, denote. destruct s as [iso reg db dbreg cur dn]. cbn [g_iso g_reg g_db g_dbreg g_cur g_done] in *.
  destruct dn; [reflexivity|]. destruct reg as [c|].
  - rewrite (update_isoset_ok h HP iso (incl_refl perms) (gcell_ok_numbers (G1 c eq_refl))).
    split; [split; cbn; [discriminate|exact G2]|]. split.
    + unfold reg_iso, reg_db. cbn [g_iso g_reg g_db g_dbreg g_cur g_done].
      rewrite (update_isoset_ok h HP iso (incl_refl perms) (gcell_ok_numbers (G1 c eq_refl))). reflexivity.
    + unfold mu; cbn. lia.
  - destruct dbreg as [z|].
    + split; [split; cbn; [discriminate|exact G2]|]. split; [reflexivity|]. unfold mu; cbn. lia.
    + destruct cur as [[c es]|].
      * destruct (G2 c es eq_refl) as [Gc Ge]. destruct es as [|[i a] es].
        -- split; [split; cbn; discriminate|]. split; [reflexivity|unfold mu; cbn; lia].
        -- assert (Ge' : forall j b, In (j, b) es -> j < n) by (intros j b Hj; apply (Ge j b); now right).
           assert (Gs : forall c' es', Some (c, es) = Some (c', es') -> gcell_ok c' /\ forall i a, In (i, a) es' -> i < n)
             by (intros c' es' K; injection K as <- <-; auto).
           destruct (cond i a) eqn:Ec.
           ++ pose proof Gc as [x [Lx Ex]].
              rewrite set_nth_ok by (rewrite (gcell_ok_numbers Gc); apply (Ge i a); now left).
              destruct (memZ (h (upd (numbers c) i v)) db) eqn:Em.
              ** split; [split; cbn; [discriminate|exact Gs]|]. split.
                 --- unfold reg_iso, reg_db, add_rest. cbn [g_iso g_reg g_db g_dbreg g_cur g_done add_one_inner].
                     rewrite Ec, set_nth_ok by (rewrite (gcell_ok_numbers Gc); apply (Ge i a); now left). rewrite Em. reflexivity.
                 --- unfold mu; cbn. lia.
              ** assert (En : GeneralCell_new (lattice c) (positions c) (upd (numbers c) i v) = Ok (cellof c0 (upd x i v))).
                 { subst c. cbn [lattice positions numbers cellof]. apply new_cellof; [assumption|]. rewrite upd_length. exact Lx. }
                 rewrite En.
                 assert (Gn : gcell_ok (cellof c0 (upd x i v))) by (exists (upd x i v); split; [now rewrite upd_length|reflexivity]).
                 assert (Ea : forall db', db' = db -> add_rest db' (Some (c, (i, a) :: es)) l =
                    cellof c0 (upd x i v) :: add_rest (h (upd (numbers c) i v) :: db) (Some (c, es)) l).
                 { intros db' ->. unfold add_rest. cbn [add_one_inner].
                   rewrite Ec, set_nth_ok by (rewrite (gcell_ok_numbers Gc); apply (Ge i a); now left). rewrite Em, En.
                   destruct (add_one_inner h c v cond (h (upd (numbers c) i v) :: db) es) as [[l1 db1] e1]. reflexivity. }
                 destruct (memZ (cell_id h (cellof c0 (upd x i v))) iso) eqn:Ei.
                 --- split; [split; cbn; [discriminate|exact Gs]|]. split.
                     +++ unfold reg_iso, reg_db. cbn [g_iso g_reg g_db g_dbreg g_cur g_done]. rewrite Ea by reflexivity.
                         cbn [nodup_loop]. rewrite Ei. reflexivity.
                     +++ unfold mu; cbn. lia.
                 --- split; [split; cbn; [|exact Gs]|]. { intros d K. injection K as <-. exact Gn. }
                     split; [|exact Gn].
                     unfold reg_iso, reg_db. cbn [g_iso g_reg g_db g_dbreg g_cur g_done]. rewrite Ea by reflexivity.
                     cbn [nodup_loop]. rewrite Ei.
                     rewrite (update_isoset_ok h HP iso (incl_refl perms) (gcell_ok_numbers Gn)). reflexivity.
           ++ split; [split; cbn; [discriminate|exact Gs]|]. split.
              ** unfold reg_iso, reg_db, add_rest. cbn [g_iso g_reg g_db g_dbreg g_cur g_done add_one_inner]. rewrite Ec. reflexivity.
              ** unfold mu; cbn. lia.
      * split; [reflexivity|]. destruct l as [|x l]; [exact I|]. inversion HL as [|? ? Hx Hl]; subst.
        split.
        -- split; cbn; [discriminate|]. intros c es K. injection K as <- <-. split; [assumption|].
           intros i a Hi. apply In_enumerate in Hi. rewrite <- (gcell_ok_numbers Hx). apply nth_error_Some. congruence.
        -- unfold reg_iso, reg_db. cbn [g_iso g_reg g_db g_dbreg g_cur g_done].
           f_equal. f_equal. apply (outer_cons _ _ Hx).
Qed.

(** *** the system invariant.  [E k] is the full list of level k. *)
Context (E : nat -> list gcell).
Hypothesis E0 : E 0 = [c0].
Hypothesis Estep : forall k, E (S k) = denote gs_start (E k).
Hypothesis Eok : forall k, Forall gcell_ok (E k).

Definition level_inv (lvs : list level) (k : nat) (L : level) : Prop :=
  good (l_st L) /\ l_in L <= length (l_buf L) /\ l_out L <= length (l_buf L) /\
  match k with
  | 0 => l_buf L ++ denote (l_st L) [] = E 0 /\ l_st L = gs_finished
  | S j => forall L', nth_error lvs j = Some L' -> l_buf L ++ denote (l_st L) (skipn (l_in L') (E j)) = E (S j)
  end.
Definition inv (lvs : list level) : Prop := forall k L, nth_error lvs k = Some L -> level_inv lvs k L.

(** [lvs'] extends [lvs] by reading levels up to k. *)
Definition frame (k : nat) (lvs lvs' : list level) : Prop :=
  length lvs' = length lvs /\
  (forall j L L', nth_error lvs j = Some L -> nth_error lvs' j = Some L' ->
     l_out L' = l_out L /\ (k <= j -> l_in L' = l_in L) /\ (k < j -> L' = L)).

Lemma frame_refl k lvs : frame k lvs lvs.
Proof. split; [reflexivity|]. intros j L L' H H'. rewrite H in H'. injection H' as <-. auto. Qed.

Lemma frame_trans k a b c : frame k a b -> frame k b c -> frame k a c.
Proof.
  intros [L1 H1] [L2 H2]. split; [congruence|]. intros j L L' HL HL'.
  destruct (nth_error b j) as [M|] eqn:EM.
  - destruct (H1 j L M HL EM) as [A1 [A2 A3]], (H2 j M L' EM HL') as [B1 [B2 B3]]. split; [congruence|]. split.
    + intros K. rewrite B2, A2; auto.
    + intros K. rewrite B3, A3; auto.
  - exfalso. apply nth_error_None in EM. assert (j < length a) by (apply nth_error_Some; congruence). lia.
Qed.

Lemma nth_error_upd_same A (l : list A) i x y : nth_error l i = Some y -> nth_error (upd l i x) i = Some x.
Proof.
  intros H. assert (i < length l) by (apply nth_error_Some; congruence).
  rewrite LLevels.nth_error_upd by assumption. now rewrite Nat.eqb_refl.
Qed.
Lemma nth_error_upd_other A (l : list A) i j x : i <> j -> nth_error (upd l i x) j = nth_error l j.
Proof.
  intros N. rewrite LBase.nth_error_upd. destruct (Nat.eqb_spec i j); [contradiction|reflexivity].
Qed.

(** Replacing level k by one with the same positions and a consistent state. *)
Lemma inv_upd lvs k L L' : inv lvs -> nth_error lvs k = Some L -> l_in L' = l_in L ->
  level_inv lvs k L' -> inv (upd lvs k L').
Proof.
  intros HI HL EI HN j M HM. destruct (Nat.eq_dec k j) as [<-|N].
  - rewrite (nth_error_upd_same _ HL) in HM. injection HM as <-.
    destruct HN as [A1 [A2 [A3 A4]]]. split; [exact A1|]. split; [exact A2|]. split; [exact A3|]. destruct k as [|k]; [exact A4|].
    intros P HPn. rewrite nth_error_upd_other in HPn by lia. auto.
  - rewrite nth_error_upd_other in HM by assumption. destruct (HI j M HM) as [A1 [A2 [A3 A4]]].
    split; [exact A1|]. split; [exact A2|]. split; [exact A3|]. destruct j as [|j]; [exact A4|].
    intros P HPn. destruct (Nat.eq_dec k j) as [<-|N'].
    + rewrite (nth_error_upd_same _ HL) in HPn. injection HPn as <-. rewrite EI. auto.
    + rewrite nth_error_upd_other in HPn by assumption. auto.
Qed.

Lemma frame_upd k lvs L L' : nth_error lvs k = Some L -> l_in L' = l_in L -> l_out L' = l_out L -> frame k lvs (upd lvs k L').
Proof.
  intros HL EI EO. split; [apply upd_length|]. intros j M M' HM HM'. destruct (Nat.eq_dec k j) as [<-|N].
  - rewrite (nth_error_upd_same _ HL) in HM'. injection HM' as <-. rewrite HL in HM. injection HM as <-.
    split; [assumption|]. split; [auto|lia].
  - rewrite nth_error_upd_other in HM' by assumption. rewrite HM in HM'. injection HM' as <-. auto.
Qed.

Definition run_result (k : nat) (lvs : list level) (r : reply) (lvs' : list level) : Prop :=
  inv lvs' /\ frame k lvs lvs' /\
  forall L, nth_error lvs k = Some L -> exists L', nth_error lvs' k = Some L' /\
    match nth_error (E k) (length (l_buf L)) with
    | Some c => r = RItem c /\ l_buf L' = l_buf L ++ [c]
    | None => r = RStop /\ l_buf L' = l_buf L
    end.

Definition runs (k : nat) (lvs : list level) : Prop :=
  exists F r lvs', (forall fuel, F <= fuel -> run h perms v cond fuel lvs k = Some (r, lvs')) /\ run_result k lvs r lvs'.

(** Reading through the inner branch. *)
Definition pull_result (k : nat) (lvs : list level) (r : reply) (lvs' : list level) : Prop :=
  length lvs' = length lvs /\
  (forall j L L', nth_error lvs j = Some L -> nth_error lvs' j = Some L' -> l_out L' = l_out L /\ (k < j -> L' = L)) /\
  (forall j L', j <= k -> nth_error lvs' j = Some L' -> level_inv lvs' j L') /\
  forall L, nth_error lvs k = Some L -> exists L', nth_error lvs' k = Some L' /\
    match nth_error (E k) (l_in L) with
    | Some c => r = RItem c /\ l_in L' = S (l_in L)
    | None => r = RStop /\ l_in L' = l_in L
    end.

Lemma buf_prefix lvs k L : inv lvs -> nth_error lvs k = Some L -> exists rest, E k = l_buf L ++ rest.
Proof.
  intros HI HL. destruct (HI k L HL) as [_ [_ [_ A]]]. destruct k as [|j]; [destruct A as [A _]; rewrite <- A; eauto|].
  destruct (nth_error lvs j) as [L'|] eqn:EL.
  - rewrite <- (A L' eq_refl). eauto.
  - exfalso. apply nth_error_None in EL. assert (S j < length lvs) by (apply nth_error_Some; congruence). lia.
Qed.

Lemma nth_prefix A (b r : list A) i x : nth_error b i = Some x -> nth_error (b ++ r) i = Some x.
Proof. intros H. rewrite nth_error_app1; [assumption|]. apply nth_error_Some. congruence. Qed.

Lemma inv_set_in lvs k L p : inv lvs -> nth_error lvs k = Some L -> p <= length (l_buf L) ->
  forall j M, j <= k -> nth_error (upd lvs k (set_in L p)) j = Some M -> level_inv (upd lvs k (set_in L p)) j M.
Proof.
  intros HI HL Hp j M Hj HM. destruct (Nat.eq_dec k j) as [<-|N].
  - rewrite (nth_error_upd_same _ HL) in HM. injection HM as <-. destruct (HI k L HL) as [A1 [A2 [A3 A4]]].
    split; [exact A1|]. split; [exact Hp|]. split; [exact A3|]. destruct k as [|k]; [exact A4|].
    intros P HPn. rewrite nth_error_upd_other in HPn by lia. apply A4. exact HPn.
  - rewrite nth_error_upd_other in HM by assumption. destruct (HI j M HM) as [A1 [A2 [A3 A4]]].
    split; [exact A1|]. split; [exact A2|]. split; [exact A3|]. destruct j as [|j]; [exact A4|].
    intros P HPn. rewrite nth_error_upd_other in HPn by lia. auto.
Qed.

Lemma tee_pull k lvs : inv lvs -> k < length lvs -> runs k lvs ->
  exists F r lvs', (forall fuel, F <= fuel -> tee_next (run h perms v cond fuel) l_in set_in lvs k = Some (r, lvs')) /\
    pull_result k lvs r lvs'.
Proof.
  intros HI Hk [F [r [lvs' [HR [I1 [[F1 F2] RR]]]]]].
  destruct (nth_error lvs k) as [L|] eqn:HL; [|apply nth_error_None in HL; lia].
  destruct (buf_prefix HI HL) as [rest Epre]. destruct (HI k L HL) as [A1 [A2 [A3 A4]]].
  destruct (nth_error (l_buf L) (l_in L)) as [c|] eqn:EB.
  - exists 0, (RItem c), (upd lvs k (set_in L (S (l_in L)))). split.
    + intros fuel _. unfold tee_next. rewrite HL, EB. reflexivity.
    + assert (l_in L < length (l_buf L)) by (apply nth_error_Some; congruence).
      split; [apply upd_length|]. split; [|split].
      * intros j M M' HM HM'. destruct (Nat.eq_dec k j) as [<-|N].
        -- rewrite (nth_error_upd_same _ HL) in HM'. injection HM' as <-. rewrite HL in HM. injection HM as <-. split; [reflexivity|lia].
        -- rewrite nth_error_upd_other in HM' by assumption. rewrite HM in HM'. injection HM' as <-. auto.
      * intros j M Hj HM. apply (inv_set_in HI HL) in HM; auto.
      * intros M HM. rewrite HL in HM. injection HM as <-. exists (set_in L (S (l_in L))). split; [apply (nth_error_upd_same _ HL)|].
        rewrite Epre, (nth_prefix rest EB). auto.
  - assert (EI : l_in L = length (l_buf L)) by (apply nth_error_None in EB; lia).
    destruct (RR L eq_refl) as [L' [HL' RC]]. rewrite <- EI in RC.
    destruct (F2 k L L' HL HL') as [FO [FI _]]. specialize (FI (le_n k)).
    destruct (nth_error (E k) (l_in L)) as [c|] eqn:EE; destruct RC as [-> RB].
    + exists F, (RItem c), (upd lvs' k (set_in L' (S (l_in L')))). split.
      * intros fuel Hf. unfold tee_next. rewrite HL, EB, (HR fuel Hf), HL'. reflexivity.
      * split; [now rewrite upd_length|]. split; [|split].
        -- intros j M M' HM HM'. destruct (Nat.eq_dec k j) as [<-|N].
           ++ rewrite (nth_error_upd_same _ HL') in HM'. injection HM' as <-. rewrite HL in HM. injection HM as <-.
              split; [exact FO|lia].
           ++ rewrite nth_error_upd_other in HM' by assumption. destruct (F2 j M M' HM HM') as [B1 [_ B3]]. auto.
        -- intros j M Hj HM. apply (inv_set_in I1 HL') in HM; auto. rewrite RB, app_length, FI, EI. cbn. lia.
        -- intros M HM. rewrite HL in HM. injection HM as <-. exists (set_in L' (S (l_in L'))). split; [apply (nth_error_upd_same _ HL')|].
           rewrite EE. split; [reflexivity|]. cbn. now rewrite FI.
    + exists F, RStop, lvs'. split.
      * intros fuel Hf. unfold tee_next. rewrite HL, EB, (HR fuel Hf). reflexivity.
      * split; [exact F1|]. split; [|split].
        -- intros j M M' HM HM'. destruct (F2 j M M' HM HM') as [B1 [_ B3]]. auto.
        -- intros j M _ HM. apply I1. exact HM.
        -- intros M HM. rewrite HL in HM. injection HM as <-. exists L'. split; [exact HL'|]. rewrite EE. auto.
Qed.

Lemma skipn_nth A (l : list A) i : skipn i l = match nth_error l i with Some x => x :: skipn (S i) l | None => [] end.
Proof.
  revert l; induction i as [|i IH]; intros [|x l]; try reflexivity.
  change (skipn (S i) (x :: l)) with (skipn i l). change (skipn (S (S i)) (x :: l)) with (skipn (S i) l). apply IH.
Qed.

Lemma good_finished : good gs_finished.
Proof. split; cbn; discriminate. Qed.
Lemma good_start : good gs_start.
Proof. split; cbn; discriminate. Qed.

Lemma run_mono_upd k lvs L s : runs k (upd lvs k (set_st L s)) -> nth_error lvs k = Some L -> True.
Proof. auto. Qed.

Lemma nth_error_rest A (b r : list A) : nth_error (b ++ r) (length b) = match r with [] => None | x :: _ => Some x end.
Proof. rewrite nth_error_app2 by lia. rewrite Nat.sub_diag. now destruct r. Qed.

(** Putting back the levels above after a pull. *)
Lemma run_level k : (forall lvs, inv lvs -> k < length lvs -> runs k lvs) ->
  forall r m lvs L L0, inv lvs -> nth_error lvs (S k) = Some L -> nth_error lvs k = Some L0 ->
    length (skipn (l_in L0) (E k)) = r -> mu (l_st L) = m -> runs (S k) lvs.
Proof.
  intros IHk r. induction r as [r IHr] using lt_wf_ind. intros m. induction m as [m IHm] using lt_wf_ind.
  intros lvs L L0 HI HL HL0 Hr Hm.
  destruct (HI (S k) L HL) as [A1 [A2 [A3 A4]]]. specialize (A4 L0 HL0). set (l := skipn (l_in L0) (E k)) in *.
  assert (Hl : Forall gcell_ok l).
  { apply Forall_forall. intros c Hc. pose proof (Eok k) as K. rewrite Forall_forall in K. apply K.
    rewrite <- (firstn_skipn (l_in L0) (E k)). apply in_app_iff. now right. }
  pose proof (step_facts A1 Hl) as SF. destruct (gstep h perms v cond (l_st L)) as [c s|g|s| |e] eqn:ES.
  - destruct SF as [S1 [S2 S3]]. exists 1, (RItem c), (upd lvs (S k) (push_item L c s)). split; [|split; [|split]].
    + intros [|fuel] Hf; [lia|]. cbn [run]. now rewrite HL, ES.
    + apply (inv_upd HI HL); [reflexivity|]. split; [exact S1|]. cbn [l_in l_out l_buf l_st push_item]. rewrite app_length; cbn.
      split; [lia|]. split; [lia|]. intros L' HL'. rewrite HL0 in HL'. injection HL' as <-. fold l.
      rewrite <- app_assoc. cbn. rewrite <- S2. exact A4.
    + apply (frame_upd HL); reflexivity.
    + intros M HM. rewrite HL in HM. injection HM as <-. exists (push_item L c s).
      split; [apply (nth_error_upd_same _ HL)|]. rewrite <- A4, nth_error_rest, S2. auto.
  - destruct SF as [S1 S2].
    assert (Hk : k < length lvs) by (apply nth_error_Some; congruence).
    destruct (tee_pull HI Hk (IHk lvs HI Hk)) as [F [rp [lvs1 [HF [P1 [P2 [P3 P4]]]]]]].
    destruct (P4 L0 HL0) as [L1 [HL1 P5]].
    assert (HS1 : nth_error lvs1 (S k) = Some L).
    { destruct (nth_error lvs1 (S k)) as [M|] eqn:EM.
      - destruct (P2 (S k) L M HL EM) as [_ K]. rewrite K by lia. reflexivity.
      - exfalso. apply nth_error_None in EM. assert (S k < length lvs) by (apply nth_error_Some; congruence). lia. }
    assert (Habove : forall j M, S k < j -> nth_error lvs1 j = Some M -> nth_error lvs j = Some M).
    { intros j M Hj HM. destruct (nth_error lvs j) as [M'|] eqn:EM.
      - destruct (P2 j M' M EM HM) as [_ K]. rewrite K by lia. reflexivity.
      - exfalso. apply nth_error_None in EM. assert (j < length lvs1) by (apply nth_error_Some; congruence). lia. }
    assert (Hinv : forall s, good s -> l_buf L ++ denote s (skipn (l_in L1) (E k)) = E (S k) -> inv (upd lvs1 (S k) (set_st L s))).
    { intros s Gs Es j M HM. destruct (lt_eq_lt_dec j (S k)) as [[Hj|Hj]|Hj].
      - rewrite nth_error_upd_other in HM by lia. destruct (P3 j M ltac:(lia) HM) as [B1 [B2 [B3 B4]]].
        split; [exact B1|]. split; [exact B2|]. split; [exact B3|]. destruct j as [|j]; [exact B4|].
        intros P HPn. rewrite nth_error_upd_other in HPn by lia. auto.
      - subst j. rewrite (nth_error_upd_same _ HS1) in HM. injection HM as <-. split; [exact Gs|]. split; [exact A2|]. split; [exact A3|].
        intros P HPn. rewrite nth_error_upd_other in HPn by lia. rewrite HL1 in HPn. injection HPn as <-. exact Es.
      - rewrite nth_error_upd_other in HM by lia. destruct (HI j M (Habove j M Hj HM)) as [B1 [B2 [B3 B4]]].
        split; [exact B1|]. split; [exact B2|]. split; [exact B3|]. destruct j as [|j]; [lia|].
        intros P HPn. destruct (Nat.eq_dec (S k) j) as [<-|N].
        + rewrite (nth_error_upd_same _ HS1) in HPn. injection HPn as <-. exact (B4 L HL).
        + rewrite nth_error_upd_other in HPn by assumption. apply B4. apply Habove; [lia|exact HPn]. }
    assert (Hfr : forall s, frame (S k) lvs (upd lvs1 (S k) (set_st L s))).
    { intros s. split; [rewrite upd_length; exact P1|]. intros j M M' HM HM'. destruct (Nat.eq_dec (S k) j) as [<-|N].
      - rewrite (nth_error_upd_same _ HS1) in HM'. injection HM' as <-. rewrite HL in HM. injection HM as <-. repeat split; auto; lia.
      - rewrite nth_error_upd_other in HM' by assumption. destruct (P2 j M M' HM HM') as [B1 B2]. split; [exact B1|]. split.
        + intros Hj. rewrite B2 by lia. reflexivity.
        + intros Hj. apply B2. lia. }
    destruct (nth_error (E k) (l_in L0)) as [x|] eqn:EX; destruct P5 as [Erp EI]; subst rp.
    + assert (El : l = x :: skipn (l_in L1) (E k)) by (unfold l; rewrite (skipn_nth _ (l_in L0)), EX, EI; reflexivity).
      rewrite El in S2. destruct S2 as [S3 S4]. rewrite El, S4 in A4.
      assert (HI2 : inv (upd lvs1 (S k) (set_st L (g x)))) by (apply Hinv; assumption).
      assert (HL2 : nth_error (upd lvs1 (S k) (set_st L (g x))) (S k) = Some (set_st L (g x))) by (apply (nth_error_upd_same _ HS1)).
      assert (HL02 : nth_error (upd lvs1 (S k) (set_st L (g x))) k = Some L1) by (rewrite nth_error_upd_other by lia; exact HL1).
      destruct (IHr (length (skipn (l_in L1) (E k)))) with (m := mu (g x)) (2 := HI2) (3 := HL2) (4 := HL02) as [F' [r' [lvs' [HF' [Q1 [Q2 Q3]]]]]].
      * rewrite <- Hr, El. cbn. lia.
      * reflexivity.
      * reflexivity.
      * exists (S (F + F')), r', lvs'. split; [|split; [exact Q1|split]].
        -- intros [|fuel] Hf; [lia|]. cbn [run]. rewrite HL, ES. replace (S k - 1) with k by lia.
           rewrite HF by lia. apply HF'. lia.
        -- eapply frame_trans; [apply Hfr|exact Q2].
        -- intros M HM. rewrite HL in HM. injection HM as <-. destruct (Q3 _ HL2) as [L' [HL' RC]]. exists L'. split; [exact HL'|]. exact RC.
    + assert (El : l = []) by (unfold l; rewrite (skipn_nth _ (l_in L0)), EX; reflexivity).
      rewrite El, S1, app_nil_r in A4.
      exists (S F), RStop, (upd lvs1 (S k) (set_st L gs_finished)). split; [|split; [|split]].
      * intros [|fuel] Hf; [lia|]. cbn [run]. rewrite HL, ES. replace (S k - 1) with k by lia. rewrite HF by lia. reflexivity.
      * apply Hinv; [apply good_finished|]. cbn. now rewrite app_nil_r.
      * apply Hfr.
      * intros M HM. rewrite HL in HM. injection HM as <-. exists (set_st L gs_finished). split; [apply (nth_error_upd_same _ HS1)|].
        rewrite <- A4. rewrite (proj2 (nth_error_None _ _)) by lia. auto.
  - destruct SF as [S1 [S2 S3]].
    assert (HI2 : inv (upd lvs (S k) (set_st L s))).
    { apply (inv_upd HI HL); [reflexivity|]. split; [exact S1|]. split; [exact A2|]. split; [exact A3|].
      intros L' HL'. rewrite HL0 in HL'. injection HL' as <-. cbn. fold l. rewrite <- S2. exact A4. }
    assert (HL2 : nth_error (upd lvs (S k) (set_st L s)) (S k) = Some (set_st L s)) by (apply (nth_error_upd_same _ HL)).
    assert (HL02 : nth_error (upd lvs (S k) (set_st L s)) k = Some L0) by (rewrite nth_error_upd_other by lia; exact HL0).
    destruct (IHm (mu s)) with (2 := HI2) (3 := HL2) (4 := HL02) as [F' [r' [lvs' [HF' [Q1 [Q2 Q3]]]]]]; [lia|exact Hr|reflexivity|].
    exists (S F'), r', lvs'. split; [|split; [exact Q1|split]].
    + intros [|fuel] Hf; [lia|]. cbn [run]. rewrite HL, ES. apply HF'. lia.
    + refine (frame_trans _ Q2). exact (frame_upd (L' := set_st L s) HL eq_refl eq_refl).
    + intros M HM. rewrite HL in HM. injection HM as <-. destruct (Q3 _ HL2) as [L' [HL' RC]]. exists L'. split; [exact HL'|]. exact RC.
  - exists 1, RStop, (upd lvs (S k) (set_st L gs_finished)). rewrite SF, app_nil_r in A4. split; [|split; [|split]].
    + intros [|fuel] Hf; [lia|]. cbn [run]. now rewrite HL, ES.
    + apply (inv_upd HI HL); [reflexivity|]. split; [apply good_finished|]. split; [exact A2|]. split; [exact A3|].
      intros L' HL'. cbn. now rewrite app_nil_r.
    + apply (frame_upd HL); reflexivity.
    + intros M HM. rewrite HL in HM. injection HM as <-. exists (set_st L gs_finished). split; [apply (nth_error_upd_same _ HL)|].
      rewrite <- A4. rewrite (proj2 (nth_error_None _ _)) by lia. auto.
  - destruct SF.
Qed.

Lemma run_all k : forall lvs, inv lvs -> k < length lvs -> runs k lvs.
Proof.
  induction k as [|k IHk]; intros lvs HI Hk.
  - destruct (nth_error lvs 0) as [L|] eqn:HL; [|apply nth_error_None in HL; lia].
    destruct (HI 0 L HL) as [A1 [A2 [A3 [A4 A5]]]]. rewrite A5 in A4. cbn in A4. rewrite app_nil_r in A4.
    exists 1, RStop, (upd lvs 0 (set_st L gs_finished)). split; [|split; [|split]].
    + intros [|fuel] Hf; [lia|]. cbn [run]. rewrite HL, A5. reflexivity.
    + apply (inv_upd HI HL); [reflexivity|]. split; [apply good_finished|]. split; [exact A2|]. split; [exact A3|].
      split; [cbn; now rewrite app_nil_r|reflexivity].
    + apply (frame_upd HL); reflexivity.
    + intros M HM. rewrite HL in HM. injection HM as <-. exists (set_st L gs_finished). split; [apply (nth_error_upd_same _ HL)|].
      rewrite <- A4. rewrite (proj2 (nth_error_None _ _)) by lia. auto.
  - destruct (nth_error lvs (S k)) as [L|] eqn:HL; [|apply nth_error_None in HL; lia].
    destruct (nth_error lvs k) as [L0|] eqn:HL0; [|apply nth_error_None in HL0; lia].
    eapply run_level; eauto.
Qed.

(** *** caller's side *)
Definition outs (lvs : list level) (f : nat -> nat) : Prop :=
  forall k L, nth_error lvs (S k) = Some L -> l_out L = Nat.min (f k) (length (E (S k))).

Lemma inv_set_out lvs k L p : inv lvs -> nth_error lvs k = Some L -> p <= length (l_buf L) -> inv (upd lvs k (set_out L p)).
Proof.
  intros HI HL Hp. destruct (HI k L HL) as [A1 [A2 [A3 A4]]]. apply (inv_upd HI HL); [reflexivity|].
  split; [exact A1|]. split; [exact A2|]. split; [exact Hp|]. exact A4.
Qed.

Lemma serve_item lvs f k count : inv lvs -> outs lvs f -> S k < length lvs ->
  exists F lvs', (forall fuel, F <= fuel -> serve h perms v cond count fuel lvs (NextItem k) =
      Some (match nth_error (E (S k)) (f k) with Some c => GotItem c | None => GotStop end, lvs')) /\
    inv lvs' /\ length lvs' = length lvs /\ outs lvs' (fun j => if Nat.eqb j k then S (f k) else f j) /\
    (forall j L L', S k <= j -> nth_error lvs j = Some L -> nth_error lvs' j = Some L' -> l_in L' = l_in L).
Proof.
  intros HI HO Hk. destruct (nth_error lvs (S k)) as [L|] eqn:HL; [|apply nth_error_None in HL; lia].
  destruct (buf_prefix HI HL) as [rest Epre]. pose proof (HO k L HL) as EO.
  destruct (HI (S k) L HL) as [A1 [A2 [A3 A4]]].
  assert (Hlen : length (l_buf L) <= length (E (S k))) by (rewrite Epre, app_length; lia).
  assert (Heq : nth_error (E (S k)) (f k) = nth_error (E (S k)) (l_out L)).
  { rewrite EO. destruct (Nat.min_spec (f k) (length (E (S k)))) as [[_ ->]|[K ->]]; [reflexivity|].
    rewrite (proj2 (nth_error_None _ _) K). symmetry. apply nth_error_None. lia. }
  unfold serve. rewrite Heq.
  destruct (nth_error (l_buf L) (l_out L)) as [c|] eqn:EB.
  - assert (HB : l_out L < length (l_buf L)) by (apply nth_error_Some; congruence).
    exists 0, (upd lvs (S k) (set_out L (S (l_out L)))). split; [|split; [|split; [|split]]].
    + intros fuel _. unfold tee_next. rewrite HL, EB. cbn. rewrite Epre, (nth_prefix rest EB). reflexivity.
    + apply (inv_set_out HI HL). exact HB.
    + apply upd_length.
    + intros j M HM. destruct (Nat.eqb_spec j k) as [->|N].
      * rewrite (nth_error_upd_same _ HL) in HM. injection HM as <-. cbn [l_out set_out]. lia.
      * rewrite nth_error_upd_other in HM by lia. auto.
    + intros j M M' Hj HM HM'. destruct (Nat.eq_dec (S k) j) as [<-|N].
      * rewrite (nth_error_upd_same _ HL) in HM'. injection HM' as <-. rewrite HL in HM. injection HM as <-. reflexivity.
      * rewrite nth_error_upd_other in HM' by assumption. rewrite HM in HM'. now injection HM' as <-.
  - assert (EI : l_out L = length (l_buf L)) by (apply nth_error_None in EB; lia).
    destruct (run_all HI Hk) as [F [r [lvs' [HR [I1 [[F1 F2] RR]]]]]].
    destruct (RR L HL) as [L' [HL' RC]]. rewrite <- EI in RC. destruct (F2 (S k) L L' HL HL') as [FO [FI _]].
    destruct (nth_error (E (S k)) (l_out L)) as [c|] eqn:EE; destruct RC as [-> RB].
    + exists F, (upd lvs' (S k) (set_out L' (S (l_out L')))). split; [|split; [|split; [|split]]].
      * intros fuel Hf. unfold tee_next. rewrite HL, EB, (HR fuel Hf), HL'. reflexivity.
      * apply (inv_set_out I1 HL'). rewrite RB, app_length, FO, EI. cbn. lia.
      * now rewrite upd_length.
      * assert (l_out L < length (E (S k))) by (apply nth_error_Some; congruence).
        intros j M HM. destruct (Nat.eqb_spec j k) as [->|N].
        -- rewrite (nth_error_upd_same _ HL') in HM. injection HM as <-. cbn [l_out set_out]. rewrite FO. lia.
        -- rewrite nth_error_upd_other in HM by lia.
           assert (S j < length lvs) by (rewrite <- F1; apply nth_error_Some; congruence).
           destruct (nth_error lvs (S j)) as [M0|] eqn:EM; [|apply nth_error_None in EM; lia].
           destruct (F2 (S j) M0 M EM HM) as [B1 _]. rewrite B1. auto.
      * intros j M M' Hj HM HM'. destruct (Nat.eq_dec (S k) j) as [<-|N].
        -- rewrite (nth_error_upd_same _ HL') in HM'. injection HM' as <-. rewrite HL in HM. injection HM as <-. cbn. apply FI. lia.
        -- rewrite nth_error_upd_other in HM' by assumption. destruct (F2 j M M' HM HM') as [_ [B2 _]]. auto.
    + exists F, lvs'. split; [|split; [exact I1|split; [exact F1|split]]].
      * intros fuel Hf. unfold tee_next. rewrite HL, EB, (HR fuel Hf). reflexivity.
      * apply nth_error_None in EE. intros j M HM.
        assert (S j < length lvs) by (rewrite <- F1; apply nth_error_Some; congruence).
        destruct (nth_error lvs (S j)) as [M0|] eqn:EM; [|apply nth_error_None in EM; lia].
        destruct (F2 (S j) M0 M EM HM) as [B1 _]. rewrite B1. rewrite (HO j M0 EM).
        destruct (Nat.eqb_spec j k) as [->|N]; [|reflexivity]. lia.
      * intros j M M' Hj HM HM'. destruct (F2 j M M' HM HM') as [_ [B2 _]]. auto.
Qed.

Definition last_unread (lvs : list level) : Prop :=
  forall L, nth_error lvs (length lvs - 1) = Some L -> l_in L = 0.

Lemma inv_new lvs : inv lvs -> lvs <> [] -> last_unread lvs -> inv (lvs ++ [level_new]).
Proof.
  intros HI NE LU k L HL. destruct (Nat.lt_ge_cases k (length lvs)) as [Hk|Hk].
  - rewrite nth_error_app1 in HL by assumption. destruct (HI k L HL) as [A1 [A2 [A3 A4]]].
    split; [exact A1|]. split; [exact A2|]. split; [exact A3|]. destruct k as [|k]; [exact A4|].
    intros P HPn. rewrite nth_error_app1 in HPn by lia. auto.
  - rewrite nth_error_app2 in HL by assumption. destruct (k - length lvs) as [|d] eqn:Ed; [|destruct d; discriminate].
    cbn in HL. injection HL as <-. split; [apply good_start|]. split; [cbn; lia|]. split; [cbn; lia|].
    assert (Hlen : length lvs <> 0) by (destruct lvs; [congruence|discriminate]).
    destruct k as [|k]; [lia|]. intros P HPn. cbn [l_buf l_st level_new app]. rewrite (Estep k).
    rewrite nth_error_app1 in HPn by lia. rewrite (LU P); [reflexivity|]. replace (length lvs - 1) with k by lia. exact HPn.
Qed.

(** The whole session. *)
Definition upd_f (f : nat -> nat) (k : nat) : nat -> nat := fun j => if Nat.eqb j k then S (f k) else f j.

Fixpoint expected (count made : nat) (f : nat -> nat) (calls : list call) : list answer :=
  match calls with
  | [] => []
  | NextLevel :: rest => (if made <? count then GotLevel else GotStop) :: expected count (if made <? count then S made else made) f rest
  | NextItem k :: rest => match nth_error (E (S k)) (f k) with Some c => GotItem c | None => GotStop end :: expected count made (upd_f f k) rest
  end.

Fixpoint wf_calls (count made : nat) (calls : list call) : Prop :=
  match calls with
  | [] => True
  | NextLevel :: rest => wf_calls count (if made <? count then S made else made) rest
  | NextItem k :: rest => k < made /\ wf_calls count made rest
  end.

Lemma session_expected count calls : forall made lvs f,
  inv lvs -> last_unread lvs -> length lvs = S made -> outs lvs f -> (forall j, made <= j -> f j = 0) -> wf_calls count made calls ->
  exists F, forall fuel, F <= fuel -> session h perms v cond count fuel lvs calls = Some (expected count made f calls).
Proof.
  induction calls as [|[|k] calls IH]; intros made lvs f HI LU HL HO HF WF; cbn [session expected].
  - exists 0. reflexivity.
  - cbn [serve]. replace (length lvs - 1) with made by lia. cbn [wf_calls] in WF. destruct (Nat.ltb_spec made count) as [Hc|Hc].
    + destruct (IH (S made) (lvs ++ [level_new]) f) as [F HFu].
      * apply inv_new; [assumption| |assumption]. intros ->. discriminate.
      * intros L. rewrite app_length. cbn. rewrite nth_error_app2 by lia. replace (length lvs + 1 - 1 - length lvs) with 0 by lia.
        cbn. intros K. injection K as <-. reflexivity.
      * rewrite app_length. cbn. lia.
      * intros k L HkL. destruct (Nat.lt_ge_cases (S k) (length lvs)) as [Hk|Hk].
        -- rewrite nth_error_app1 in HkL by assumption. auto.
        -- rewrite nth_error_app2 in HkL by assumption. destruct (S k - length lvs) as [|d]; [|destruct d; discriminate].
           cbn in HkL. injection HkL as <-. cbn. rewrite HF by lia. reflexivity.
      * intros j Hj. apply HF. lia.
      * exact WF.
      * exists F. intros fuel Hf. rewrite HFu by assumption. reflexivity.
    + destruct (IH made lvs f HI LU HL HO HF WF) as [F HFu]. exists F. intros fuel Hf. rewrite HFu by assumption. reflexivity.
  - cbn in WF. destruct WF as [Hk WF].
    destruct (@serve_item lvs f k count HI HO) as [F1 [lvs' [HS [HI' [HL' [HO' HIN]]]]]]; [lia|].
    destruct (IH made lvs' (upd_f f k)) as [F2 HFu].
    + exact HI'.
    + intros L HLL. rewrite HL' in HLL. destruct (nth_error lvs (length lvs - 1)) as [L0|] eqn:E1.
      * rewrite (HIN (length lvs - 1) L0 L); auto. lia.
      * apply nth_error_None in E1. lia.
    + congruence.
    + exact HO'.
    + intros j Hj. unfold upd_f. destruct (Nat.eqb_spec j k); [lia|auto].
    + exact WF.
    + exists (F1 + F2). intros fuel Hf. rewrite HS by lia. rewrite HFu by lia. reflexivity.
Qed.

Lemma inv_init : inv [level0 c0].
Proof.
  intros [|k] L HL; cbn in HL; [|destruct k; discriminate]. injection HL as <-.
  split; [apply good_finished|]. split; [cbn; lia|]. split; [cbn; lia|]. split; [cbn; now rewrite E0|reflexivity].
Qed.

Lemma session_init count calls : wf_calls count 0 calls ->
  exists F, forall fuel, F <= fuel -> session h perms v cond count fuel [level0 c0] calls = Some (expected count 0 (fun _ => 0) calls).
Proof.
  intros WF. apply session_expected; auto.
  - apply inv_init.
  - intros L HL. cbn in HL. injection HL as <-. reflexivity.
  - intros k L HL. destruct k; discriminate.
Qed.
End Tee.

(** *** from [expected] to the specification *)
Lemma wf_calls_of count calls : forall before, well_formed count (before ++ calls) ->
  wf_calls count (Nat.min count (count_occ call_eq_dec before NextLevel)) calls.
Proof.
  induction calls as [|[|k] calls IH]; intros before W; cbn [wf_calls]; [exact I| |].
  - specialize (IH (before ++ [NextLevel])). rewrite <- app_assoc in IH. specialize (IH W). rewrite count_occ_app in IH. cbn in IH.
    destruct (Nat.ltb_spec (Nat.min count (count_occ call_eq_dec before NextLevel)) count) as [H|H].
    + replace (S (Nat.min count (count_occ call_eq_dec before NextLevel))) with (Nat.min count (count_occ call_eq_dec before NextLevel + 1)) by lia. exact IH.
    + replace (Nat.min count (count_occ call_eq_dec before NextLevel)) with (Nat.min count (count_occ call_eq_dec before NextLevel + 1)) by lia. exact IH.
  - destruct (W before k calls eq_refl) as [W1 W2]. split; [lia|].
    specialize (IH (before ++ [NextItem k])). rewrite <- app_assoc in IH. specialize (IH W). rewrite count_occ_app in IH. cbn in IH.
    now rewrite Nat.add_0_r in IH.
Qed.

Lemma expected_length E count calls : forall made f, length (expected E count made f calls) = length calls.
Proof. induction calls as [|[|k] calls IH]; intros made f; cbn; auto. Qed.

Lemma expected_right E lv calls : (forall k items, nth_error lv k = Some items -> E (S k) = items) ->
  forall before made f, made = Nat.min (length lv) (count_occ call_eq_dec before NextLevel) ->
    (forall k, f k = count_occ call_eq_dec before (NextItem k)) ->
    wf_calls (length lv) made calls ->
    forall b c a, calls = b ++ c :: a ->
    nth_error (expected E (length lv) made f calls) (length b) = Some
      match c with
      | NextLevel => if count_occ call_eq_dec (before ++ b) NextLevel <? length lv then GotLevel else GotStop
      | NextItem k =>
          match nth_error lv k with
          | None => GotStop
          | Some items =>
              match nth_error items (count_occ call_eq_dec (before ++ b) (NextItem k)) with
              | Some x => GotItem x
              | None => GotStop
              end
          end
      end.
Proof.
  intros HE. induction calls as [|d calls IH]; intros before made f Hm Hf WF b c a EQ; [destruct b; discriminate|].
  destruct b as [|d' b].
  - cbn in EQ. injection EQ as -> ->. rewrite app_nil_r. cbn [length]. destruct c as [|k]; cbn [expected nth_error].
    + f_equal. subst made. destruct (Nat.ltb_spec (Nat.min (length lv) (count_occ call_eq_dec before NextLevel)) (length lv)),
        (Nat.ltb_spec (count_occ call_eq_dec before NextLevel) (length lv)); try reflexivity; lia.
    + cbn in WF. destruct WF as [Hk _]. destruct (nth_error lv k) as [its|] eqn:EL.
      * rewrite (HE k its EL), Hf. reflexivity.
      * apply nth_error_None in EL. lia.
  - cbn in EQ. injection EQ as -> ->. cbn [length]. replace (before ++ d' :: b) with ((before ++ [d']) ++ b) by (now rewrite <- app_assoc).
    destruct d' as [|k]; cbn [expected nth_error].
    + apply (IH (before ++ [NextLevel])) with (a := a).
      * rewrite count_occ_app. change (count_occ call_eq_dec [NextLevel] NextLevel) with 1. subst made. destruct (Nat.ltb_spec (Nat.min (length lv) (count_occ call_eq_dec before NextLevel)) (length lv)); lia.
      * intros k. rewrite count_occ_app. cbn. rewrite Hf. lia.
      * exact WF.
      * reflexivity.
    + apply (IH (before ++ [NextItem k])) with (a := a).
      * rewrite count_occ_app. change (count_occ call_eq_dec [NextItem k] NextLevel) with 0. rewrite Nat.add_0_r. exact Hm.
      * intros j. rewrite count_occ_app. unfold upd_f. cbn [count_occ]. destruct (Nat.eqb_spec j k) as [->|N].
        -- destruct (call_eq_dec (NextItem k) (NextItem k)); [|congruence]. rewrite Hf. lia.
        -- destruct (call_eq_dec (NextItem k) (NextItem j)); [congruence|]. rewrite Hf. lia.
      * cbn in WF. tauto.
      * reflexivity.
Qed.

(** Full list of level k (level 0 is the initial cell). *)
Fixpoint level_items (step : trace gcell -> trace gcell) (c0 : gcell) (k : nat) : trace gcell :=
  match k with O => mkTrace [c0] None | S j => step (level_items step c0 j) end.

Lemma levels_nth step count k t c0 m : nth_error (levels step count (level_items step c0 m)) k = Some t -> t = level_items step c0 (m + S k).
Proof.
  revert m k. induction count as [|count IH]; intros m [|k]; cbn [levels nth_error]; try discriminate.
  - intros H. injection H as <-. now rewrite Nat.add_1_r.
  - intros H. apply (IH (S m)) in H. rewrite H. f_equal. lia.
Qed.

Lemma C24_generic h o v cond count : from_constructor (init_cell o) ->
  (forall p, In p (sym_perm o) -> Permutation p (seq 0 (length (numbers (init_cell o))))) ->
  let lv := levels (fun gen => gen_2nodup_gen h o (add_one_outer h v cond [] (items gen) (stop gen))) count (mkTrace [init_cell o] None) in
  forall calls, well_formed count calls ->
  exists F, forall fuel, F <= fuel -> exists ans,
    session h (sym_perm o) v cond count fuel [level0 (init_cell o)] calls = Some ans /\
    right_answers (map (@items gcell) lv) calls ans.
Proof.
  intros FC HP lv calls WF. set (step := fun gen => gen_2nodup_gen h o (add_one_outer h v cond [] (items gen) (stop gen))) in *.
  set (T := level_items step (init_cell o)). set (E := fun k => items (T k)).
  assert (Hinit : gcell_ok (init_cell o) (init_cell o)).
  { destruct (from_constructor_facts FC) as [_ [_ [_ [_ K]]]]. exists (numbers (init_cell o)). auto. }
  assert (HT : forall k, stop (T k) = None /\ Forall (gcell_ok (init_cell o)) (items (T k))).
  { induction k as [|k [S1 S2]]; cbn.
    - split; [reflexivity|]. constructor; [exact Hinit|constructor].
    - fold T. unfold step. rewrite S1.
      assert (X : exists xs, items (T k) = map (cellof (init_cell o)) xs /\ forall x, In x xs -> length x = length (numbers (init_cell o))).
      { clear - S2. induction S2 as [|c l [x [L ->]] _ [xs [-> IH]]]; [exists []; easy|]. exists (x :: xs). split; [reflexivity|]. intros y [<-|Hy]; auto. }
      destruct X as [xs [EX LX]]. rewrite EX.
      destruct (@add_one_outer_spec h (init_cell o) v cond FC xs [] None LX) as [l [El [H1 _]]]. rewrite El.
      assert (Hl : forall c, In c l -> gcell_ok (init_cell o) c).
      { intros c Hc. destruct (H1 c Hc) as [x [i [a [A1 [_ [_ ->]]]]]]. exists (upd x i v). split; [rewrite upd_length; auto|reflexivity]. }
      unfold gen_2nodup_gen, gen_2nodup_gen_with. cbn [items stop].
      destruct (nodup_loop_spec h HP (act := fun c => c) [] (cells := l) None) as [out [Eo [SS _]]].
      + intros c Hc. destruct (Hl c Hc) as [x [L ->]]. exact L.
      + reflexivity.
      + rewrite Eo. cbn. split; [reflexivity|]. apply Forall_forall. intros c Hc. apply Hl. now apply (subseq_incl SS). }
  assert (HX : forall k, stop (add_one_outer h v cond [] (items (T k)) None) = None).
  { intros k. destruct (HT k) as [_ S2].
    assert (X : exists xs, items (T k) = map (cellof (init_cell o)) xs /\ forall x, In x xs -> length x = length (numbers (init_cell o))).
    { clear - S2. induction S2 as [|c l [x [L ->]] _ [xs [-> IH]]]; [exists []; easy|]. exists (x :: xs). split; [reflexivity|]. intros y [<-|Hy]; auto. }
    destruct X as [xs [EX LX]]. rewrite EX.
    destruct (@add_one_outer_spec h (init_cell o) v cond FC xs [] None LX) as [l [El _]]. rewrite El. reflexivity. }
  destruct (@session_init h (sym_perm o) v cond (init_cell o) FC HP E) with (count := count) (calls := calls) as [F HF].
  - reflexivity.
  - intros k. unfold E. cbn [T level_items]. change (level_items step (init_cell o) k) with (T k). unfold step at 1.
    destruct (HT k) as [S1 _]. rewrite S1.
    unfold gen_2nodup_gen, gen_2nodup_gen_with. rewrite HX. reflexivity.
  - intros k. apply HT.
  - apply (wf_calls_of (before := [])) in WF. cbn in WF. rewrite Nat.min_0_r in WF. exact WF.
  - exists F. intros fuel Hf. eexists. split; [apply HF; exact Hf|].
    assert (EL : length (map (@items gcell) lv) = count) by (unfold lv; rewrite map_length; apply levels_length).
    split; [apply expected_length|]. intros b c a EQ. rewrite <- EL.
    apply (expected_right (lv := map (@items gcell) lv)) with (before := []) (a := a).
    + intros k its Hk. rewrite nth_error_map in Hk. destruct (nth_error lv k) as [t|] eqn:Et; [|discriminate].
      cbn in Hk. injection Hk as <-. unfold E. apply (levels_nth (m := 0)) in Et. rewrite Et. reflexivity.
    + cbn. now rewrite Nat.min_0_r.
    + reflexivity.
    + rewrite EL. apply (wf_calls_of (before := [])) in WF. cbn in WF. rewrite Nat.min_0_r in WF. exact WF.
    + exact EQ.
Qed.
