(** Lemmas on grids. *)
From Verif Require Import Base LBase BaseQ LQ MElement SElement LElement MComb SSubst LComb MGrid SGrid.
Set Implicit Arguments.
Unset Strict Implicit.
Open Scope nat_scope.

Lemma norm_index_Some n z i : norm_index n z = Some i <-> denotes n z i.
Proof.
  unfold norm_index, denotes. destruct (Z.leb_spec 0 z).
  - destruct (Z.ltb_spec z (Z.of_nat n)); split.
    + intros [= <-]. lia.
    + intros [H1 H2]. f_equal. lia.
    + discriminate.
    + lia.
  - destruct (Z.leb_spec 0 (z + Z.of_nat n)); split.
    + intros [= <-]. lia.
    + intros [H1 H2]. f_equal. lia.
    + discriminate.
    + lia.
Qed.
Lemma norm_index_None n z : norm_index n z = None <-> forall i, ~ denotes n z i.
Proof.
  split.
  - intros H i D. apply norm_index_Some in D. congruence.
  - intros H. destruct (norm_index n z) as [i|] eqn:E; [|reflexivity]. apply norm_index_Some in E. destruct (H i E).
Qed.
Lemma denotes_fun n z i j : denotes n z i -> denotes n z j -> i = j.
Proof. unfold denotes. lia. Qed.
Lemma py_get_denotes A (l : list A) z i : denotes (length l) z i -> py_get l z = get_nth l i.
Proof. intros H. apply norm_index_Some in H. unfold py_get. now rewrite H. Qed.
Lemma py_get_out A (l : list A) z : (forall i, ~ denotes (length l) z i) -> py_get l z = Raise IndexError.
Proof. intros H. apply norm_index_None in H. unfold py_get. now rewrite H. Qed.
Lemma py_set_denotes A (l : list A) z i v : denotes (length l) z i -> py_set l z v = set_nth l i v.
Proof. intros H. apply norm_index_Some in H. unfold py_set. now rewrite H. Qed.
Lemma py_set_out A (l : list A) z v : (forall i, ~ denotes (length l) z i) -> py_set l z v = Raise IndexError.
Proof. intros H. apply norm_index_None in H. unfold py_set. now rewrite H. Qed.

Lemma get_nth_Some A (l : list A) i x : get_nth l i = Ok x <-> nth_error l i = Some x.
Proof. unfold get_nth. destruct (nth_error l i); split; congruence. Qed.
Lemma set_nth_upd A (l : list A) i v : i < length l -> set_nth l i v = Ok (upd l i v).
Proof.
  revert i. induction l as [|a l IH]; intros [|i] H; cbn in *; try lia; [reflexivity|].
  rewrite IH by lia. reflexivity.
Qed.
Lemma set_nth_inv A (l : list A) i v l' : set_nth l i v = Ok l' -> i < length l /\ l' = upd l i v.
Proof.
  intros H. assert (L : i < length l).
  { revert l' i H. induction l as [|a l IH]; intros l' [|i] H; cbn in *; try discriminate; [lia|].
    destruct (set_nth l i v) eqn:E; [|discriminate]. specialize (IH _ _ E). lia. }
  split; [assumption|]. rewrite (set_nth_upd v L) in H. congruence.
Qed.
Lemma upd_length A (l : list A) i v : length (upd l i v) = length l.
Proof. revert i. induction l as [|a l IH]; intros [|i]; cbn; auto. Qed.
Lemma upd_same A (l : list A) i v : i < length l -> nth_error (upd l i v) i = Some v.
Proof. revert i. induction l as [|a l IH]; intros [|i] H; cbn in *; try lia; auto. apply IH. lia. Qed.
Lemma upd_other A (l : list A) i j v : i <> j -> nth_error (upd l i v) j = nth_error l j.
Proof. revert i j. induction l as [|a l IH]; intros [|i] [|j] H; cbn; auto; try lia. Qed.

(** Invariant of a grid in a heap. *)
Definition ginv (hp : heap) (g : sgrid) : Prop :=
  0 < g_depth g /\ 0 < g_width g /\ 0 < g_length g /\ length (g_sites g) = g_depth g /\
  Forall (fun p => length p = g_width g) (g_sites g) /\
  NoDup (concat (g_sites g)) /\
  (forall a, In a (concat (g_sites g)) -> exists r, nth_error hp a = Some r /\ length r = g_length g).

Lemma alloc_spec planes : forall hp, let (ads, hp') := alloc hp planes in
  hp' = hp ++ concat planes /\ concat ads = seq (length hp) (length (concat planes)) /\
  map (@length nat) ads = map (@length (list specie)) planes /\
  mapM (mapM (get_nth hp')) ads = Ok planes.
Proof.
  induction planes as [|p t IH]; intros hp; cbn.
  - rewrite app_nil_r. auto.
  - specialize (IH (hp ++ p)). destruct (alloc (hp ++ p) t) as [ads hp']. destruct IH as [E1 [E2 [E3 E4]]].
    cbn. rewrite seq_length, E3, E2, E4. split; [now rewrite E1, app_assoc|]. split; [|split; [reflexivity|]].
    + rewrite !app_length, seq_app. reflexivity.
    + assert (H : mapM (get_nth hp') (seq (length hp) (length p)) = Ok p).
      { rewrite E1, <- app_assoc. generalize (concat t) as tl. clear. revert hp. induction p as [|r p IH]; intros hp tl; [reflexivity|].
        cbn. assert (get_nth (hp ++ r :: p ++ tl) (length hp) = Ok r) as -> .
        { apply get_nth_Some. rewrite nth_error_app2 by lia. now rewrite Nat.sub_diag. }
        cbn. specialize (IH (hp ++ [r]) tl). rewrite <- app_assoc in IH. cbn in IH. rewrite app_length in IH. cbn in IH.
        rewrite Nat.add_1_r in IH. rewrite IH. reflexivity. }
      rewrite H. reflexivity.
Qed.

Lemma shaped_concat A (a : list (list (list A))) d w l : shaped a d w l ->
  length (concat a) = d * w /\ Forall (fun r => length r = l) (concat a) /\ length (concat (concat a)) = d * w * l.
Proof.
  intros [L F]. assert (H1 : length (concat a) = d * w /\ Forall (fun r => length r = l) (concat a)).
  { subst d. induction F as [|p a [P1 P2] F IH]; cbn; [auto|]. rewrite app_length. destruct IH. split; [lia|]. now apply Forall_app. }
  destruct H1 as [H1 H2]. split; [assumption|]. split; [assumption|]. rewrite <- H1.
  clear - H2. induction H2 as [|r b R F IH]; cbn; [reflexivity|]. rewrite app_length. lia.
Qed.

Lemma grid_of_spec hp planes d w l : shaped planes d w l -> 0 < d -> 0 < w ->
  exists g hp', grid_of hp planes = Ok (g, hp') /\ hp' = hp ++ concat planes /\
    g_depth g = d /\ g_width g = w /\ g_length g = l /\ contents hp' g = Ok planes /\
    concat (g_sites g) = seq (length hp) (length (concat planes)) /\
    length (g_sites g) = d /\ Forall (fun p => length p = w) (g_sites g).
Proof.
  intros SH Hd Hw. pose proof (alloc_spec planes hp) as A. unfold grid_of. destruct (alloc hp planes) as [ads hp'].
  destruct A as [E1 [E2 [E3 E4]]]. destruct SH as [L F].
  destruct planes as [|p t]; cbn in L; [lia|]. inversion F as [|? ? [P1 P2] F']; subst.
  destruct p as [|r p]; cbn in Hw; [lia|]. inversion P2 as [|? ? R1 R2]; subst.
  destruct ads as [|a0 ads]; [discriminate|]. cbn in E3. injection E3 as E3 E3'.
  destruct a0 as [|a a0]; [discriminate|]. cbn in E4.
  destruct (get_nth (hp ++ r :: p ++ concat t) a) as [r'|] eqn:Er; [|discriminate]. cbn in E4.
  cbn [concat app] in *. unfold SitesGrid_new. cbn [get_nth nth_error bind]. change (get_nth ((a :: a0) :: ads) 0) with (Ok (a :: a0)). cbn [bind].
  change (get_nth (a :: a0) 0) with (Ok a). cbn [bind]. rewrite Er. cbn [bind].
  assert (r' = r).
  { destruct (mapM (get_nth (hp ++ r :: p ++ concat t)) a0); [|discriminate]. cbn in E4.
    destruct (mapM (mapM (get_nth (hp ++ r :: p ++ concat t))) ads); [|discriminate]. cbn in E4. congruence. }
  subst r'. eexists. eexists. split; [reflexivity|]. split; [reflexivity|]. cbn [g_depth g_width g_length g_sites length].
  split; [f_equal; rewrite <- (map_length (@length nat) ads), E3'; apply map_length|].
  split; [exact E3|]. split; [reflexivity|]. split.
  - unfold contents. cbn [g_sites mapM]. rewrite Er. cbn. exact E4.
  - split; [exact E2|]. split; [f_equal; rewrite <- (map_length (@length nat) ads), E3'; apply map_length|].
    constructor; [exact E3|]. clear - E3' F'. revert t E3' F'. induction ads as [|x ads IH]; intros [|q t] E F; cbn in E; try discriminate; constructor.
    + injection E as E E'. inversion F as [|? ? [Q1 Q2] F']; subst. cbn in *. congruence.
    + injection E as E E'. inversion F; subst. eapply IH; eauto.
Qed.

Lemma grid_of_inv hp planes d w l g hp' : shaped planes d w l -> 0 < d -> 0 < w -> 0 < l ->
  grid_of hp planes = Ok (g, hp') -> ginv hp' g.
Proof.
  intros SH Hd Hw Hl E. destruct (@grid_of_spec hp planes d w l SH Hd Hw) as [g1 [hp1 [E1 [E2 [E3 [E4 [E5 [E6 [E7 [E8 E9]]]]]]]]]].
  rewrite E in E1. injection E1 as <- <-. unfold ginv. rewrite E3, E4, E5, E7. repeat split; auto.
  - apply seq_NoDup.
  - intros a Ha. apply in_seq in Ha. rewrite E2. destruct (shaped_concat SH) as [C1 [C2 C3]].
    rewrite nth_error_app2 by lia. destruct (nth_error (concat planes) (a - length hp)) as [r|] eqn:Er.
    + exists r. split; [reflexivity|]. rewrite Forall_forall in C2. apply C2. eapply nth_error_In; eauto.
    + apply nth_error_None in Er. lia.
Qed.

Lemma shaped_repeat A (x : A) d w l : shaped (repeat (repeat (repeat x l) w) d) d w l.
Proof.
  split; [apply repeat_length|]. apply Forall_forall. intros p Hp. apply repeat_spec in Hp. subst. split; [apply repeat_length|].
  apply Forall_forall. intros r Hr. apply repeat_spec in Hr. subst. apply repeat_length.
Qed.

Lemma grid_of_nonempty hp planes g hp' : grid_of hp planes = Ok (g, hp') -> exists p0 r0 p t, planes = (r0 :: p0) :: t /\ p = r0.
Proof.
  pose proof (alloc_spec planes hp) as A. unfold grid_of. destruct (alloc hp planes) as [ads hp1]. destruct A as [E1 [E2 [E3 E4]]].
  unfold SitesGrid_new. intros H. destruct planes as [|p t].
  - destruct ads; [discriminate H|discriminate E3].
  - destruct ads as [|a ads]; [discriminate|]. destruct p as [|r p]; [|exists p, r, r, t; auto].
    cbn in E3. injection E3 as E3 _. destruct a; [discriminate H|discriminate E3].
Qed.

(** Frame: allocation extends the heap, writes keep row lengths. *)
Definition extends (hp hp' : heap) : Prop :=
  forall a r, nth_error hp a = Some r -> exists r', nth_error hp' a = Some r' /\ length r' = length r.
Lemma ginv_extends hp hp' g : ginv hp g -> extends hp hp' -> ginv hp' g.
Proof.
  intros [H1 [H2 [H3 [H4 [H5 [H6 H7]]]]]] E. repeat (split; [assumption|]). intros a Ha. destruct (H7 a Ha) as [r [R1 R2]].
  destruct (E a r R1) as [r' [R3 R4]]. exists r'. split; [assumption|congruence].
Qed.
Lemma grid_of_extends hp planes g hp' : grid_of hp planes = Ok (g, hp') -> hp' = hp ++ concat planes /\ extends hp hp'.
Proof.
  pose proof (alloc_spec planes hp) as A. unfold grid_of. destruct (alloc hp planes) as [ads hp1]. destruct A as [E1 _].
  intros H. destruct (SitesGrid_new hp1 ads) as [gg|]; [|discriminate]. injection H as _ <-. split; [assumption|].
  intros a r Ha. exists r. split; [|reflexivity]. rewrite E1. rewrite nth_error_app1; [assumption|]. apply nth_error_Some. congruence.
Qed.
Lemma from_array_extends hp arr g hp' : from_array hp arr = Ok (g, hp') -> extends hp hp'.
Proof.
  unfold from_array. destruct (Nat.eqb (size_of arr) 0); [discriminate|]. destruct (mapM (mapM (mapM from_num)) arr); [|discriminate].
  intros H. eapply grid_of_extends; eauto.
Qed.
Lemma grid_set_inv hp g x y z s hp' : grid_set hp g (x, y, z) s = Ok hp' ->
  exists plane a row, py_get (g_sites g) x = Ok plane /\ py_get plane y = Ok a /\ nth_error hp a = Some row /\
    exists k, denotes (length row) z k /\ hp' = upd hp a (upd row k s).
Proof.
  unfold grid_set. intros H. destruct (py_get (g_sites g) x) as [plane|] eqn:E1; [|discriminate]. cbn in H.
  destruct (py_get plane y) as [a|] eqn:E2; [|discriminate]. cbn in H.
  destruct (get_nth hp a) as [row|] eqn:E3; [|discriminate]. cbn in H. apply get_nth_Some in E3.
  unfold py_set in H. destruct (norm_index (length row) z) as [k|] eqn:E4; [|discriminate]. apply norm_index_Some in E4.
  destruct (set_nth row k s) as [row'|] eqn:E5; [|discriminate]. cbn in H. apply set_nth_inv in E5. destruct E5 as [_ ->].
  apply set_nth_inv in H. destruct H as [_ ->]. exists plane, a, row. do 3 (split; [first [assumption|reflexivity]|]). exists k. auto.
Qed.
Lemma grid_set_extends hp g pos s hp' : grid_set hp g pos s = Ok hp' -> extends hp hp'.
Proof.
  destruct pos as [[x y] z]. intros H. apply grid_set_inv in H. destruct H as [plane [a [row [_ [_ [Ha [k [_ ->]]]]]]]].
  intros b r Hb. destruct (Nat.eq_dec a b) as [<-|N].
  - rewrite Ha in Hb. injection Hb as <-. exists (upd row k s). split; [|apply upd_length]. apply upd_same. apply nth_error_Some. congruence.
  - exists r. split; [|reflexivity]. now rewrite upd_other.
Qed.

Lemma mapM_len A B (f : A -> res B) l r : mapM f l = Ok r -> length r = length l.
Proof.
  revert r. induction l as [|a l IH]; intros r; cbn; [intros [= <-]; reflexivity|].
  destruct (f a); [|discriminate]. cbn. destruct (mapM f l) eqn:E; [|discriminate]. cbn. intros [= <-]. cbn. f_equal. now apply IH.
Qed.
Lemma mapM_Forall2 A B (f : A -> res B) l r : mapM f l = Ok r <-> Forall2 (fun a b => f a = Ok b) l r.
Proof.
  split.
  - revert r. induction l as [|a l IH]; intros r; cbn; [intros [= <-]; constructor|].
    destruct (f a) eqn:Ea; [|discriminate]. cbn. destruct (mapM f l) eqn:E; [|discriminate]. cbn. intros [= <-]. constructor; auto.
  - induction 1 as [|a b l r H F IH]; cbn; [reflexivity|]. rewrite H. cbn. rewrite IH. reflexivity.
Qed.
Lemma shaped_mapM A B (f : A -> res B) a b d w l : mapM (mapM (mapM f)) a = Ok b -> shaped a d w l -> shaped b d w l.
Proof.
  intros H [L F]. split; [rewrite (mapM_len H); assumption|]. apply mapM_Forall2 in H. clear L.
  induction H as [|p q a b Hp H IH]; [constructor|]. inversion F as [|? ? [P1 P2] F']; subst. constructor; [|auto].
  split; [apply (mapM_len Hp)|]. apply mapM_Forall2 in Hp. clear - Hp P2. induction Hp as [|r s p q Hr Hp IH]; [constructor|].
  inversion P2; subst. constructor; [|auto]. apply (mapM_len Hr).
Qed.

Lemma size_pos A (a : list (list (list A))) d w l : shaped a d w l -> (Nat.eqb (size_of a) 0 = false <-> 0 < d /\ 0 < w /\ 0 < l).
Proof.
  intros H. destruct (shaped_concat H) as [_ [_ E]]. unfold size_of. rewrite E. rewrite Nat.eqb_neq. split; [|intros [? [? ?]]; nia].
  intros N. destruct d, w, l; try lia; exfalso; apply N; lia.
Qed.

Lemma live_inv hp g : live hp g -> ginv hp g.
Proof.
  induction 1 as [hp d w l sp g hp' H Hl|hp arr d w l g hp' SH H|hp g g' pos s hp' _ IH H|hp g d w l sp g' hp' _ IH H|hp g arr g' hp' _ IH H].
  - destruct (grid_of_nonempty H) as [p0 [r0 [_ [t [E _]]]]]. destruct d; [discriminate|]. destruct w; [discriminate|].
    apply (grid_of_inv (shaped_repeat sp (S d) (S w) l)) in H; auto; lia.
  - unfold from_array in H. destruct (Nat.eqb (size_of arr) 0) eqn:E; [discriminate|]. apply (size_pos SH) in E. destruct E as [? [? ?]].
    destruct (mapM (mapM (mapM from_num)) arr) as [sarr|] eqn:Em; [|discriminate]. cbn in H.
    apply (grid_of_inv (shaped_mapM Em SH)) in H; auto.
  - apply (ginv_extends IH). eapply grid_set_extends; eauto.
  - apply (ginv_extends IH). eapply grid_of_extends; eauto.
  - apply (ginv_extends IH). eapply from_array_extends; eauto.
Qed.

Lemma nodup_app_l A (a b : list A) : NoDup (a ++ b) -> NoDup a.
Proof. induction a as [|x a IH]; cbn; intros H; [constructor|]. inversion H; subst. constructor; [|auto]. intros I. apply H2. apply in_app_iff. auto. Qed.
Lemma nodup_app_r A (a b : list A) : NoDup (a ++ b) -> NoDup b.
Proof. induction a as [|x a IH]; cbn; intros H; [assumption|]. inversion H; subst. auto. Qed.

(** Address of a site. *)
Definition addr (g : sgrid) (i j : nat) : option nat :=
  match nth_error (g_sites g) i with Some p => nth_error p j | None => None end.
Lemma addr_in hp g i j : ginv hp g -> i < g_depth g -> j < g_width g -> exists a, addr g i j = Some a /\ In a (concat (g_sites g)).
Proof.
  intros [_ [_ [_ [L [F _]]]]] Hi Hj. unfold addr. destruct (nth_error (g_sites g) i) as [p|] eqn:E; [|apply nth_error_None in E; lia].
  rewrite Forall_forall in F. pose proof (F p (nth_error_In _ _ E)) as Lp.
  destruct (nth_error p j) as [a|] eqn:Ea; [|apply nth_error_None in Ea; lia]. exists a. split; [reflexivity|].
  apply in_concat. exists p. split; eapply nth_error_In; eauto.
Qed.
Lemma concat_nodup_inj (ls : list (list nat)) : NoDup (concat ls) -> forall i j i' j' p p' a,
  nth_error ls i = Some p -> nth_error p j = Some a -> nth_error ls i' = Some p' -> nth_error p' j' = Some a -> i = i' /\ j = j'.
Proof.
  induction ls as [|q ls IH]; intros ND i j i' j' p p' a H1 H2 H3 H4; [destruct i; discriminate|]. cbn in ND.
  pose proof (nodup_app_l ND) as NDq. pose proof (nodup_app_r ND) as NDl.
  assert (X : forall x, In x q -> ~ In x (concat ls)).
  { clear - ND. induction q as [|y q IH]; intros x Hx; [easy|]. cbn in ND. inversion ND; subst. destruct Hx as [<-|Hx]; [|auto].
    intros I. apply H1. apply in_app_iff. auto. }
  destruct i as [|i], i' as [|i']; cbn in *.
  - injection H1 as <-. injection H3 as <-. split; [reflexivity|]. apply (proj1 (NoDup_nth_error q) NDq); [apply nth_error_Some; congruence|congruence].
  - injection H1 as <-. exfalso. apply (X a); [eapply nth_error_In; eauto|]. apply in_concat. exists p'. split; eapply nth_error_In; eauto.
  - injection H3 as <-. exfalso. apply (X a); [eapply nth_error_In; eauto|]. apply in_concat. exists p. split; eapply nth_error_In; eauto.
  - destruct (IH NDl i j i' j' p p' a); auto.
Qed.

Lemma grid_get_at hp g x y z i j k : ginv hp g -> denotes3 g (x, y, z) (i, j, k) ->
  exists a row, addr g i j = Some a /\ nth_error hp a = Some row /\ k < length row /\ length row = g_length g /\ grid_get hp g (x, y, z) = get_nth row k /\
    forall s, grid_set hp g (x, y, z) s = Ok (upd hp a (upd row k s)).
Proof.
  intros I [D1 [D2 D3]]. destruct (@addr_in hp g i j I) as [a [A1 A2]]; [apply D1|apply D2|].
  destruct I as [_ [_ [_ [L [F [ND R]]]]]]. destruct (R a A2) as [row [R1 R2]]. exists a, row. split; [assumption|]. split; [assumption|].
  split; [rewrite R2; apply D3|]. split; [assumption|].
  unfold addr in A1. destruct (nth_error (g_sites g) i) as [p|] eqn:Ep; [|discriminate].
  assert (Lp : length p = g_width g) by (rewrite Forall_forall in F; apply F; eapply nth_error_In; eauto).
  assert (E1 : py_get (g_sites g) x = Ok p) by (rewrite (@py_get_denotes _ _ _ i) by (now rewrite L); now apply get_nth_Some).
  assert (E2 : py_get p y = Ok a) by (rewrite (@py_get_denotes _ _ _ j) by (now rewrite Lp); now apply get_nth_Some).
  assert (E3 : get_nth hp a = Ok row) by now apply get_nth_Some.
  unfold grid_get, grid_set. rewrite E1. cbn. rewrite E2. cbn. rewrite E3. cbn. rewrite (@py_get_denotes _ _ _ k) by now rewrite R2.
  split; [reflexivity|]. intros s. rewrite (@py_set_denotes _ _ _ k) by now rewrite R2.
  rewrite set_nth_upd by (rewrite R2; apply D3). cbn. apply set_nth_upd. apply nth_error_Some. congruence.
Qed.

Lemma grid_out hp g pos : ginv hp g -> (forall p, ~ denotes3 g pos p) ->
  grid_get hp g pos = Raise IndexError /\ forall s, grid_set hp g pos s = Raise IndexError.
Proof.
  intros I N. destruct pos as [[x y] z]. unfold grid_get, grid_set. pose proof I as [_ [_ [_ [L [F [ND R]]]]]].
  destruct (norm_index (g_depth g) x) as [i|] eqn:E1.
  2:{ pose proof (proj1 (norm_index_None _ _) E1) as N1. rewrite <- L in N1. rewrite (py_get_out N1). split; reflexivity. }
  apply norm_index_Some in E1. destruct (nth_error (g_sites g) i) as [p|] eqn:Ep; [|apply nth_error_None in Ep; destruct E1; lia].
  assert (Lp : length p = g_width g) by (rewrite Forall_forall in F; apply F; eapply nth_error_In; eauto).
  assert (py_get (g_sites g) x = Ok p) as -> by (rewrite (@py_get_denotes _ _ _ i) by (now rewrite L); now apply get_nth_Some). cbn.
  destruct (norm_index (g_width g) y) as [j|] eqn:E2.
  2:{ pose proof (proj1 (norm_index_None _ _) E2) as N1. rewrite <- Lp in N1. rewrite (py_get_out N1). split; reflexivity. }
  apply norm_index_Some in E2. destruct (nth_error p j) as [a|] eqn:Ea; [|apply nth_error_None in Ea; destruct E2; lia].
  assert (py_get p y = Ok a) as -> by (rewrite (@py_get_denotes _ _ _ j) by (now rewrite Lp); now apply get_nth_Some). cbn.
  destruct (R a) as [row [R1 R2]]; [apply in_concat; exists p; split; eapply nth_error_In; eauto|].
  assert (get_nth hp a = Ok row) as -> by now apply get_nth_Some. cbn.
  assert (D : forall k, ~ denotes (length row) z k) by (rewrite R2; intros k Dk; apply (N (i, j, k)); repeat split; auto; try apply E1; try apply E2; apply Dk).
  rewrite (py_get_out D). split; [reflexivity|]. intros s. now rewrite (py_set_out s D).
Qed.

Lemma C05_lemma hp g pos s : live hp g ->
  ((forall p, ~ denotes3 g pos p) -> grid_get hp g pos = Raise IndexError /\ grid_set hp g pos s = Raise IndexError) /\
  (forall p, denotes3 g pos p -> exists hp', grid_set hp g pos s = Ok hp' /\ live hp' g /\
     forall pos' p', denotes3 g pos' p' ->
       (p' = p -> grid_get hp' g pos' = Ok s) /\
       (p' <> p -> grid_get hp' g pos' = grid_get hp g pos' /\ exists v, grid_get hp g pos' = Ok v)).
Proof.
  intros LV. pose proof (live_inv LV) as I. split.
  - intros N. destruct (grid_out I N) as [H1 H2]. auto.
  - destruct pos as [[x y] z]. intros [[i j] k] D. destruct (grid_get_at I D) as [a [row [A1 [A2 [A3 [A4 [A5 A6]]]]]]].
    exists (upd hp a (upd row k s)). split; [auto|]. assert (LV' : live (upd hp a (upd row k s)) g) by (eapply live_write; eauto).
    split; [assumption|]. intros [[x' y'] z'] [[i' j'] k'] D'. pose proof (live_inv LV') as I'.
    destruct (grid_get_at I D') as [b [rb [B1 [B2 [B3 [B4 [B5 _]]]]]]].
    destruct (grid_get_at I' D') as [b' [rb' [C1 [C2 [C3 [C4 [C5 _]]]]]]].
    assert (b' = b) by congruence. subst b'. rewrite C5, B5. split.
    + intros [= -> -> ->]. assert (b = a) by congruence. subst b. rewrite upd_same in C2 by (apply nth_error_Some; congruence).
      injection C2 as <-. apply get_nth_Some. now apply upd_same.
    + intros N. split.
      * destruct (Nat.eq_dec a b) as [<-|Nab].
        -- rewrite upd_same in C2 by (apply nth_error_Some; congruence). injection C2 as <-. assert (rb = row) by congruence. subst rb.
           unfold get_nth. rewrite upd_other; [reflexivity|]. intros <-. apply N.
           unfold addr in A1, B1. destruct (nth_error (g_sites g) i) as [p|] eqn:E1; [|discriminate].
           destruct (nth_error (g_sites g) i') as [p'|] eqn:E2; [|discriminate].
           destruct I as [_ [_ [_ [_ [_ [ND _]]]]]]. destruct (concat_nodup_inj ND E1 A1 E2 B1) as [-> ->]. reflexivity.
        -- rewrite upd_other in C2 by assumption. congruence.
      * destruct (nth_error rb k') as [v|] eqn:Ev; [|apply nth_error_None in Ev; lia]. exists v. now apply get_nth_Some.
Qed.

(** C06 *)
Lemma deepCopy_spec hp g : live hp g -> exists c, deepCopy hp g = Ok c /\ g_sites c = g_sites g /\
  g_depth c = g_depth g /\ g_width c = g_width g /\ g_length c = g_length g.
Proof.
  intros LV. pose proof (live_inv LV) as I. pose proof I as [P1 [P2 [P3 [L [F [ND R]]]]]]. unfold deepCopy, SitesGrid_new.
  destruct (@addr_in hp g 0 0 I P1 P2) as [a [A1 A2]]. unfold addr in A1.
  destruct (nth_error (g_sites g) 0) as [p|] eqn:E; [|discriminate]. destruct (R a A2) as [r [R1 R2]].
  assert (get_nth (g_sites g) 0 = Ok p) as -> by now apply get_nth_Some. cbn [bind].
  assert (get_nth p 0 = Ok a) as -> by now apply get_nth_Some. cbn [bind].
  assert (get_nth hp a = Ok r) as -> by now apply get_nth_Some. cbn [bind].
  eexists. split; [reflexivity|]. cbn. rewrite map_id. split; [reflexivity|]. split; [assumption|]. split; [|assumption].
  rewrite Forall_forall in F. apply F. eapply nth_error_In; eauto.
Qed.
Lemma C06_lemma hp g : live hp g -> exists c, deepCopy hp g = Ok c /\
  (forall hp' pos, grid_get hp' c pos = grid_get hp' g pos) /\
  (forall hp' pos s, grid_set hp' c pos s = grid_set hp' g pos s) /\
  (forall hp' pos p s, live hp' g -> denotes3 g pos p -> exists hp2, grid_set hp' c pos s = Ok hp2 /\ grid_get hp2 g pos = Ok s).
Proof.
  intros LV. destruct (deepCopy_spec LV) as [c [E [E1 [E2 [E3 E4]]]]]. exists c. split; [assumption|].
  assert (X : forall hp' pos, grid_get hp' c pos = grid_get hp' g pos) by (intros hp' [[x y] z]; unfold grid_get; now rewrite E1).
  assert (Y : forall hp' pos s, grid_set hp' c pos s = grid_set hp' g pos s) by (intros hp' [[x y] z] s; unfold grid_set; now rewrite E1).
  split; [assumption|]. split; [assumption|].
  intros hp' pos p s LV' D. destruct (proj2 (C05_lemma pos s LV') p D) as [hp2 [S2 [_ H]]]. exists hp2. rewrite Y. split; [assumption|].
  apply (proj1 (H pos p D)). reflexivity.
Qed.
