(** Lemmas on grids, continued: arrays, placements, cells. *)
From Verif Require Import Base LBase BaseQ LQ MElement SElement LElement MComb SSubst LComb MGrid SGrid LGrid.
Set Implicit Arguments.
Unset Strict Implicit.
Open Scope nat_scope.

(** *** list helpers *)
Lemma nth_error_nil' A i : nth_error (@nil A) i = None.
Proof. destruct i; reflexivity. Qed.
Lemma Forall2_nth_error_l A B (R : A -> B -> Prop) l l' i a : Forall2 R l l' -> nth_error l i = Some a -> exists b, nth_error l' i = Some b /\ R a b.
Proof. intros F. revert i. induction F as [|x y l l' H F IH]; intros [|i] E; cbn in *; try discriminate; [injection E as <-; eauto|auto]. Qed.
Lemma app_inj_len A (a b c d : list A) : length a = length c -> a ++ b = c ++ d -> a = c /\ b = d.
Proof. revert c. induction a as [|x a IH]; intros [|y c] L E; cbn in *; try discriminate; [auto|]. injection E as -> E. destruct (IH c) as [-> ->]; auto. Qed.
Lemma nth_error_repeat' A (x : A) n i : i < n -> nth_error (repeat x n) i = Some x.
Proof. revert i. induction n as [|n IH]; intros [|i] H; cbn; try lia; auto. apply IH. lia. Qed.
Lemma nth_error_repeat_inv A (x a : A) n i : nth_error (repeat x n) i = Some a -> i < n /\ a = x.
Proof.
  intros H. assert (L : i < length (repeat x n)) by (apply nth_error_Some; congruence). rewrite repeat_length in L.
  rewrite nth_error_repeat' in H by assumption. split; [assumption|congruence].
Qed.
Lemma supported_dec z : {supported z} + {~ supported z}.
Proof. unfold supported. destruct (Z_le_dec 0 z), (Z_le_dec z 56), (Z_le_dec 72 z), (Z_le_dec z 88); first [left; lia|right; lia]. Qed.

(** *** contents *)
Lemma nth_concat A (ls : list (list A)) n : Forall (fun p => length p = n) ls -> forall i j, j < n ->
  nth_error (concat ls) (i * n + j) = match nth_error ls i with Some p => nth_error p j | None => None end.
Proof.
  induction 1 as [|p ls Lp F IH]; intros i j Hj; cbn.
  - rewrite !nth_error_nil'. destruct i; reflexivity.
  - destruct i as [|i]; cbn.
    + rewrite nth_error_app1 by lia. reflexivity.
    + rewrite nth_error_app2 by lia. replace (n + i * n + j - length p) with (i * n + j) by lia. now apply IH.
Qed.

Lemma nth_concat2 A (a : list (list (list A))) d w l : shaped a d w l -> forall i j k, j < w -> k < l ->
  nth_error (concat (concat a)) ((i * w + j) * l + k) = entry a i j k.
Proof.
  intros H i j k Hj Hk. destruct (shaped_concat H) as [_ [F _]]. rewrite (nth_concat F _ Hk). unfold entry.
  assert (F' : Forall (fun p => length p = w) a) by (destruct H as [_ H]; eapply Forall_impl; [|exact H]; cbn; tauto).
  rewrite (nth_concat F' _ Hj). destruct (nth_error a i); reflexivity.
Qed.
Lemma entry_Some A (a : list (list (list A))) d w l i j k : shaped a d w l -> i < d -> j < w -> k < l -> exists v, entry a i j k = Some v.
Proof.
  intros [L F] Hi Hj Hk. unfold entry. destruct (nth_error a i) as [p|] eqn:E1; [|apply nth_error_None in E1; lia].
  rewrite Forall_forall in F. destruct (F p (nth_error_In _ _ E1)) as [P1 P2].
  destruct (nth_error p j) as [r|] eqn:E2; [|apply nth_error_None in E2; lia].
  rewrite Forall_forall in P2. pose proof (P2 r (nth_error_In _ _ E2)).
  destruct (nth_error r k) as [v|] eqn:E3; [eauto|apply nth_error_None in E3; lia].
Qed.
Lemma entry_range A (a : list (list (list A))) d w l i j k v : shaped a d w l -> entry a i j k = Some v -> i < d /\ j < w /\ k < l.
Proof.
  intros [L F] E. unfold entry in E. destruct (nth_error a i) as [p|] eqn:E1; [|discriminate].
  destruct (nth_error p j) as [r|] eqn:E2; [|discriminate]. rewrite Forall_forall in F. destruct (F p (nth_error_In _ _ E1)) as [P1 P2].
  rewrite Forall_forall in P2. pose proof (P2 r (nth_error_In _ _ E2)) as P3.
  rewrite <- L, <- P1, <- P3. repeat split; apply nth_error_Some; congruence.
Qed.
Lemma entry_In A (a : list (list (list A))) i j k v : entry a i j k = Some v -> In v (concat (concat a)).
Proof.
  unfold entry. destruct (nth_error a i) as [p|] eqn:E1; [|discriminate]. destruct (nth_error p j) as [r|] eqn:E2; [|discriminate].
  intros E. apply in_concat. exists r. split; [|eapply nth_error_In; eauto]. apply in_concat. exists p. split; eapply nth_error_In; eauto.
Qed.
Lemma In_entry A (a : list (list (list A))) v : In v (concat (concat a)) -> exists i j k, entry a i j k = Some v.
Proof.
  intros H. apply in_concat in H. destruct H as [r [Hr Hv]]. apply in_concat in Hr. destruct Hr as [p [Hp Hr]].
  apply In_nth_error in Hp. destruct Hp as [i Hi]. apply In_nth_error in Hr. destruct Hr as [j Hj]. apply In_nth_error in Hv. destruct Hv as [k Hk].
  exists i, j, k. unfold entry. now rewrite Hi, Hj.
Qed.

Lemma contents_spec hp g : ginv hp g -> exists c, contents hp g = Ok c /\ shaped c (g_depth g) (g_width g) (g_length g) /\
  forall i j k, i < g_depth g -> j < g_width g -> k < g_length g -> exists s, entry c i j k = Some s /\
    forall pos, denotes3 g pos (i, j, k) -> grid_get hp g pos = Ok s.
Proof.
  intros I. pose proof I as [P1 [P2 [P3 [L [F [ND R]]]]]]. unfold contents.
  assert (X : exists c, mapM (mapM (get_nth hp)) (g_sites g) = Ok c).
  { clear L F ND. induction (g_sites g) as [|p ps IH]; cbn; [eauto|].
    assert (exists q, mapM (get_nth hp) p = Ok q) as [q ->].
    { assert (R' : forall a, In a p -> exists r, nth_error hp a = Some r) by (intros a Ha; destruct (R a) as [r [? _]]; [cbn; apply in_app_iff; auto|eauto]).
      clear - R'. induction p as [|a p IH]; cbn; [eauto|]. destruct (R' a) as [r Hr]; [now left|]. apply get_nth_Some in Hr. rewrite Hr. cbn.
      destruct IH as [q ->]; [intros; apply R'; now right|]. cbn. eauto. }
    cbn. destruct IH as [c ->]; [intros a Ha; apply R; cbn; apply in_app_iff; auto|]. cbn. eauto. }
  destruct X as [c Ec]. exists c. split; [assumption|]. pose proof Ec as Fc. apply mapM_Forall2 in Fc.
  assert (SH : shaped c (g_depth g) (g_width g) (g_length g)).
  { split; [rewrite (mapM_len Ec); assumption|]. clear Ec L ND. induction Fc as [|p q ps c Hp Fc IH]; [constructor|].
    inversion F; subst. constructor; [|apply IH; auto; intros a Ha; apply R; cbn; apply in_app_iff; auto].
    split; [rewrite (mapM_len Hp); assumption|]. apply mapM_Forall2 in Hp.
    assert (R' : forall a, In a p -> exists r, nth_error hp a = Some r /\ length r = g_length g) by (intros a Ha; apply R; cbn; apply in_app_iff; auto).
    clear - Hp R'. induction Hp as [|a r p q Ha Hp IH]; [constructor|]. constructor; [|apply IH; intros; apply R'; now right].
    destruct (R' a) as [r' [H1 H2]]; [now left|]. apply get_nth_Some in Ha. congruence. }
  split; [assumption|]. intros i j k Hi Hj Hk. destruct (entry_Some SH Hi Hj Hk) as [s Es]. exists s. split; [assumption|].
  intros [[x y] z] D. destruct (grid_get_at I D) as [a [row [A1 [A2 [A3 [A4 [A5 _]]]]]]]. rewrite A5. apply get_nth_Some.
  unfold entry in Es. unfold addr in A1. destruct (nth_error (g_sites g) i) as [p|] eqn:E1; [|discriminate].
  destruct (Forall2_nth_error_l Fc E1) as [q [Q1 Q2]]. rewrite Q1 in Es. apply mapM_Forall2 in Q2.
  destruct (Forall2_nth_error_l Q2 A1) as [r [R1 R2]]. rewrite R1 in Es. apply get_nth_Some in R2. congruence.
Qed.

Lemma rectangular_shaped A (a : list (list (list A))) d w l : rectangular a d w l = true <-> shaped a d w l.
Proof.
  unfold rectangular, shaped. rewrite andb_true_iff, Nat.eqb_eq, forallb_forall, Forall_forall.
  split; intros [H1 H2]; (split; [assumption|]); intros p Hp; specialize (H2 p Hp).
  - rewrite andb_true_iff, Nat.eqb_eq, forallb_forall in H2. destruct H2 as [H2 H3]. split; [assumption|]. apply Forall_forall. intros r Hr. now apply Nat.eqb_eq, H3.
  - rewrite andb_true_iff, Nat.eqb_eq, forallb_forall. destruct H2 as [H2 H3]. split; [assumption|]. rewrite Forall_forall in H3. intros r Hr. now apply Nat.eqb_eq, H3.
Qed.
Lemma shape_of_shaped A (a : list (list (list A))) d w l : shaped a d w l -> 0 < d -> 0 < w -> shape_of a = (d, w, l).
Proof.
  intros [L F] Hd Hw. destruct a as [|p a]; cbn in L; [lia|]. inversion F as [|? ? [P1 P2] _]; subst.
  destruct p as [|r p]; cbn in Hw; [lia|]. inversion P2; subst. reflexivity.
Qed.
Lemma shaped_map A B (f : A -> B) a d w l : shaped a d w l -> shaped (map (map (map f)) a) d w l.
Proof.
  intros [L F]. split; [now rewrite map_length|]. apply Forall_map. eapply Forall_impl; [|exact F]. cbn. intros p [P1 P2].
  split; [now rewrite map_length|]. apply Forall_map. eapply Forall_impl; [|exact P2]. cbn. intros r Hr. now rewrite map_length.
Qed.
Lemma entry_map A B (f : A -> B) a i j k : entry (map (map (map f)) a) i j k = option_map f (entry a i j k).
Proof.
  unfold entry. rewrite nth_error_map. destruct (nth_error a i) as [p|]; cbn; [|reflexivity]. rewrite nth_error_map.
  destruct (nth_error p j) as [r|]; cbn; [|reflexivity]. apply nth_error_map.
Qed.
Lemma to_array_of hp g c d w l : contents hp g = Ok c -> shaped c d w l -> 0 < d -> 0 < w -> 0 < l ->
  to_array hp g = Ok (map (map (map sp_Z)) c).
Proof.
  intros E SH Hd Hw Hl. unfold to_array. rewrite E. cbn [bind]. rewrite (shape_of_shaped SH Hd Hw).
  rewrite (proj2 (rectangular_shaped _ _ _ _) SH). cbn [negb]. rewrite (proj2 (size_pos SH)) by auto. reflexivity.
Qed.

(** *** from_array *)
Lemma mapM_from_num (r : list Z) : (forall z, In z r -> supported z) -> exists s, mapM from_num r = Ok s /\ map sp_Z s = r.
Proof.
  induction r as [|z r IH]; intros H; cbn; [exists []; auto|]. destruct (@from_num_ok z) as [sp [E1 E2]]; [apply H; now left|].
  rewrite E1. cbn. destruct IH as [s [-> E]]; [intros; apply H; now right|]. cbn. exists (sp :: s). cbn. rewrite E, E2. auto.
Qed.
Lemma mapM_exists A B (f : A -> res B) (g : B -> A) l : (forall a, In a l -> exists b, f a = Ok b /\ g b = a) -> exists s, mapM f l = Ok s /\ map g s = l.
Proof.
  induction l as [|a l IH]; intros H; cbn; [exists []; auto|]. destruct (H a) as [b [E1 E2]]; [now left|].
  rewrite E1. cbn. destruct IH as [s [-> E]]; [intros; apply H; now right|]. cbn. exists (b :: s). cbn. rewrite E, E2. auto.
Qed.
Lemma mapM3_from_num arr : (forall z, In z (concat (concat arr)) -> supported z) ->
  exists s, mapM (mapM (mapM from_num)) arr = Ok s /\ map (map (map sp_Z)) s = arr.
Proof.
  intros H. apply mapM_exists. intros p Hp. apply mapM_exists. intros r Hr. apply mapM_from_num. intros z Hz. apply H.
  apply in_concat. exists r. split; [|assumption]. apply in_concat. eauto.
Qed.
Lemma from_array_ok hp arr d w l : shaped arr d w l -> 0 < d -> 0 < w -> 0 < l ->
  (forall z, In z (concat (concat arr)) -> supported z) ->
  exists g hp' c, from_array hp arr = Ok (g, hp') /\ contents hp' g = Ok c /\ shaped c d w l /\ map (map (map sp_Z)) c = arr /\
    to_array hp' g = Ok arr /\ live hp' g /\ (exists ext, hp' = hp ++ ext) /\ g_depth g = d /\ g_width g = w /\ g_length g = l.
Proof.
  intros SH Hd Hw Hl HS. destruct (mapM3_from_num HS) as [s [E1 E2]].
  destruct (@grid_of_spec hp s d w l (shaped_mapM E1 SH) Hd Hw) as [g [hp' [G1 [G2 [G3 [G4 [G5 [G6 _]]]]]]]].
  assert (E : from_array hp arr = Ok (g, hp')).
  { unfold from_array. rewrite (proj2 (size_pos SH)) by auto. rewrite E1. cbn. exact G1. }
  exists g, hp', s. split; [assumption|]. split; [assumption|]. split; [apply (shaped_mapM E1 SH)|]. split; [assumption|].
  split; [rewrite (to_array_of G6 (shaped_mapM E1 SH) Hd Hw Hl); now rewrite E2|].
  split; [eapply live_from_array; eauto|]. split; [exists (concat s); exact G2|auto].
Qed.

Lemma mapM_raise A B (f : A -> res B) (e : exn) l : (forall a e', In a l -> f a = Raise e' -> e' = e) ->
  (exists a, In a l /\ f a = Raise e) -> mapM f l = Raise e.
Proof.
  induction l as [|b l IH]; intros H [a [Ha E]]; [easy|]. cbn. destruct (f b) as [y|e'] eqn:Eb.
  - cbn. destruct Ha as [->|Ha]; [congruence|]. rewrite IH; [reflexivity| |eauto]. intros; eapply H; eauto. now right.
  - cbn. f_equal. eapply H; [now left|eassumption].
Qed.
Lemma from_num_raise z e : from_num z = Raise e -> e = IndexError.
Proof.
  destruct (supported_dec z) as [S|N]; intros H.
  - destruct (from_num_ok S) as [sp [E _]]. congruence.
  - rewrite (proj2 (proj2 (proj2 (proj2 (proj2 (to_name_roundtrip z)))) N)) in H. congruence.
Qed.
Lemma mapM_raise_inv A B (f : A -> res B) (e0 : exn) l e : (forall a e', f a = Raise e' -> e' = e0) -> mapM f l = Raise e -> e = e0.
Proof.
  intros H. revert e. induction l as [|b l IH]; intros e; cbn; [discriminate|]. destruct (f b) as [y|e'] eqn:Eb; cbn.
  - destruct (mapM f l) eqn:E; cbn; [discriminate|]. intros [= <-]. now apply IH.
  - intros [= <-]. eapply H; eauto.
Qed.
Lemma from_array_unknown hp arr z : In z (concat (concat arr)) -> ~ supported z -> from_array hp arr = Raise IndexError.
Proof.
  intros Hz N. unfold from_array. destruct (Nat.eqb_spec (size_of arr) 0) as [E|_].
  - unfold size_of in E. destruct (concat (concat arr)); [easy|discriminate].
  - rewrite (@mapM_raise _ _ (mapM (mapM from_num)) IndexError arr); [reflexivity| |].
    + intros p e _ H. apply (mapM_raise_inv (f := mapM from_num) (e0 := IndexError)) in H; [assumption|].
      intros r e' H'. apply (mapM_raise_inv (f := from_num) (e0 := IndexError)) in H'; [assumption|]. apply from_num_raise.
    + apply in_concat in Hz. destruct Hz as [r [Hr Hz]]. apply in_concat in Hr. destruct Hr as [p [Hp Hr]]. exists p. split; [assumption|].
      apply mapM_raise.
      * intros r' e _ H. apply (mapM_raise_inv (f := from_num) (e0 := IndexError)) in H; [assumption|]. apply from_num_raise.
      * exists r. split; [assumption|]. apply mapM_raise; [intros z' e _; apply from_num_raise|]. exists z. split; [assumption|]. apply (proj2 (proj2 (proj2 (proj2 (proj2 (to_name_roundtrip z)))) N)).
Qed.

Lemma list_eqb_map A (f : A -> Z) (e : A -> A -> bool) (a b : list A) :
  (forall x y, e x y = Z.eqb (f x) (f y)) -> (list_eqb e a b = true <-> map f a = map f b).
Proof.
  intros H. revert b. induction a as [|x a IH]; intros [|y b]; cbn; try (split; [discriminate|discriminate]); [tauto|].
  rewrite andb_true_iff, H, IH, Z.eqb_eq. split; [intros [-> ->]; reflexivity|intros [= -> ->]; auto].
Qed.
Lemma list_eqb_map2 A C (f : A -> C) (e : A -> A -> bool) (a b : list A) :
  (forall x y, e x y = true <-> f x = f y) -> (list_eqb e a b = true <-> map f a = map f b).
Proof.
  intros H. revert b. induction a as [|x a IH]; intros [|y b]; cbn; try (split; [discriminate|discriminate]); [tauto|].
  rewrite andb_true_iff, H, IH. split; [intros [-> ->]; reflexivity|intros [= -> ->]; auto].
Qed.
Lemma grid_eqb_contents hp g g' c c' : contents hp g = Ok c -> contents hp g' = Ok c' ->
  exists r, grid_eqb hp g g' = Ok r /\ (r = true <-> map (map (map sp_Z)) c = map (map (map sp_Z)) c').
Proof.
  intros E E'. unfold grid_eqb. rewrite E, E'. cbn. eexists. split; [reflexivity|].
  apply list_eqb_map2. intros x y. apply list_eqb_map2. intros u v. apply list_eqb_map. reflexivity.
Qed.
Lemma contents_app hp g c ext : contents hp g = Ok c -> contents (hp ++ ext) g = Ok c.
Proof.
  unfold contents. rewrite !mapM_Forall2. intros H. induction H as [|p q ps c Hp F IH]; constructor; auto.
  rewrite mapM_Forall2 in *. clear - Hp. induction Hp as [|a r p q Ha Hp IH]; constructor; auto.
  apply get_nth_Some in Ha. apply get_nth_Some. rewrite nth_error_app1; [assumption|]. apply nth_error_Some. congruence.
Qed.

Lemma C04_back hp g : live hp g -> (forall pos s, grid_get hp g pos = Ok s -> supported (sp_Z s)) ->
  exists arr g' hp', to_array hp g = Ok arr /\ shaped arr (g_depth g) (g_width g) (g_length g) /\
    (forall i j k pos, denotes3 g pos (i, j, k) -> exists s, grid_get hp g pos = Ok s /\ entry arr i j k = Some (sp_Z s)) /\
    from_array hp arr = Ok (g', hp') /\ grid_eqb hp' g g' = Ok true.
Proof.
  intros LV HS. pose proof (live_inv LV) as I. destruct (contents_spec I) as [c [Ec [SH HE]]]. pose proof I as [P1 [P2 [P3 _]]].
  pose proof (to_array_of Ec SH P1 P2 P3) as ET. set (arr := map (map (map sp_Z)) c) in *.
  pose proof (shaped_map sp_Z SH) as SA. fold arr in SA.
  assert (HA : forall z, In z (concat (concat arr)) -> supported z).
  { intros z Hz. apply In_entry in Hz. destruct Hz as [i [j [k Hz]]]. destruct (entry_range SA Hz) as [Hi [Hj Hk]].
    destruct (HE i j k Hi Hj Hk) as [s [E1 E2]]. unfold arr in Hz. rewrite entry_map, E1 in Hz. injection Hz as <-.
    apply (HS (Z.of_nat i, Z.of_nat j, Z.of_nat k)). apply E2. repeat split; auto. }
  destruct (@from_array_ok hp arr _ _ _ SA P1 P2 P3 HA) as [g' [hp' [c' [F1 [F2 [F3 [F4 [F5 [F6 [[ext F7] _]]]]]]]]]].
  exists arr, g', hp'. split; [assumption|]. split; [assumption|]. split; [|split; [assumption|]].
  - intros i j k [[x y] z] D. pose proof D as [[Di _] [[Dj _] [Dk _]]]. destruct (HE i j k Di Dj Dk) as [s [E1 E2]]. exists s. split; [auto|].
    unfold arr. rewrite entry_map, E1. reflexivity.
  - subst hp'. destruct (grid_eqb_contents (contents_app ext Ec) F2) as [r [E1 E2]]. rewrite E1. f_equal. apply E2. symmetry. exact F4.
Qed.

(** *** reshape *)
Lemma concat_chunks A k n (l : list A) : length l = k * n -> concat (chunks k n l) = l.
Proof.
  revert l. induction k as [|k IH]; intros l L; cbn in *; [destruct l; [reflexivity|discriminate]|].
  rewrite IH; [apply firstn_skipn|]. rewrite skipn_length. lia.
Qed.
Lemma chunks_lengths A k n (l : list A) : length l = k * n -> length (chunks k n l) = k /\ Forall (fun p => length p = n) (chunks k n l).
Proof.
  revert l. induction k as [|k IH]; intros l L; cbn in *; [auto|]. destruct (IH (skipn n l)) as [H1 H2]; [rewrite skipn_length; lia|].
  split; [now f_equal|]. constructor; [|assumption]. rewrite firstn_length. lia.
Qed.
Lemma reshape_shaped A d w l (out : list A) : length out = d * w * l -> shaped (reshape d w l out) d w l /\ concat (concat (reshape d w l out)) = out.
Proof.
  intros L. unfold reshape. destruct (@chunks_lengths _ d (w * l) out) as [H1 H2]; [lia|].
  split.
  - split; [now rewrite map_length|]. apply Forall_map. eapply Forall_impl; [|exact H2]. cbn. intros p Hp. now apply chunks_lengths.
  - transitivity (concat (chunks d (w * l) out)); [|apply concat_chunks; lia].
    clear - H2. induction H2 as [|p ps Hp F IH]; cbn; [reflexivity|]. rewrite concat_app, IH. f_equal. now apply concat_chunks.
Qed.
Lemma concat_inj A n (a b : list (list A)) : length a = length b -> Forall (fun p => length p = n) a -> Forall (fun p => length p = n) b ->
  concat a = concat b -> a = b.
Proof.
  revert b. induction a as [|p a IH]; intros [|q b] L Fa Fb E; try discriminate; [reflexivity|]. cbn in E.
  inversion Fa; inversion Fb; subst. assert (p = q /\ concat a = concat b) as [-> E'].
  { apply app_inj_len; [congruence|assumption]. }
  f_equal. apply IH; auto.
Qed.
Lemma shaped_inj A (a b : list (list (list A))) d w l : shaped a d w l -> shaped b d w l -> concat (concat a) = concat (concat b) -> a = b.
Proof.
  intros SA SB E. destruct (shaped_concat SA) as [A1 [A2 _]], (shaped_concat SB) as [B1 [B2 _]].
  apply (concat_inj (n := l)) in E; [|congruence|assumption|assumption].
  destruct SA as [LA FA], SB as [LB FB]. apply (concat_inj (n := w)) in E; [assumption|congruence| |].
  - eapply Forall_impl; [|exact FA]. cbn. tauto.
  - eapply Forall_impl; [|exact FB]. cbn. tauto.
Qed.

(** *** placements *)
Definition positions_of (sp : Z) (x : list Z) : list nat := filter (fun i => Z.eqb (nth i x (sp + 1)%Z) sp) (seq 0 (length x)).
Lemma positions_count sp x : length (positions_of sp x) = count_occ Z.eq_dec x sp.
Proof.
  unfold positions_of. assert (G : forall pre, length (filter (fun i => Z.eqb (nth i (pre ++ x) (sp + 1)%Z) sp) (seq (length pre) (length x))) = count_occ Z.eq_dec x sp).
  { induction x as [|z x IH]; intros pre; cbn; [reflexivity|]. rewrite app_nth2 by lia. rewrite Nat.sub_diag. cbn.
    specialize (IH (pre ++ [z])). rewrite <- app_assoc, app_length in IH. cbn in IH. rewrite Nat.add_1_r in IH.
    destruct (Z.eqb_spec z sp), (Z.eq_dec z sp); try congruence; cbn; rewrite IH; reflexivity. }
  apply (G []).
Qed.
Lemma positions_In sp x i : In i (positions_of sp x) <-> nth_error x i = Some sp.
Proof.
  unfold positions_of. rewrite filter_In, in_seq, Z.eqb_eq. split.
  - intros [[_ H] E]. rewrite (nth_error_nth' x (sp + 1)%Z) by lia. congruence.
  - intros H. assert (i < length x) by (apply nth_error_Some; congruence). split; [lia|]. now apply nth_error_nth.
Qed.

Definition two_valued (ssp sp : Z) (n k : nat) (x : list Z) : Prop :=
  length x = n /\ Forall (fun z => z = ssp \/ z = sp) x /\ count_occ Z.eq_dec x sp = k.
Lemma two_valued_sub ssp sp n S x : ssp <> sp -> (forall i, In i S -> i < n) -> NoDup S ->
  substituted (repeat ssp n) S sp x -> two_valued ssp sp n (length S) x /\ forall i, In i S <-> nth_error x i = Some sp.
Proof.
  intros N HS ND [L H]. rewrite repeat_length in L.
  assert (I : forall i, In i S <-> nth_error x i = Some sp).
  { intros i. split.
    - intros Hi. destruct (H i ssp) as [H1 _]; [apply nth_error_repeat'; now apply HS|auto].
    - intros Hi. assert (i < n) by (rewrite <- L; apply nth_error_Some; congruence). destruct (in_dec Nat.eq_dec i S) as [Y|Y]; [assumption|].
      destruct (H i ssp) as [_ H2]; [now apply nth_error_repeat'|]. rewrite (H2 Y) in Hi. congruence. }
  split; [|assumption]. split; [assumption|]. split.
  - apply Forall_forall. intros z Hz. apply In_nth_error in Hz. destruct Hz as [i Hi]. assert (i < n) by (rewrite <- L; apply nth_error_Some; congruence).
    destruct (H i ssp) as [H1 H2]; [now apply nth_error_repeat'|]. destruct (in_dec Nat.eq_dec i S) as [Y|Y]; [rewrite (H1 Y) in Hi|rewrite (H2 Y) in Hi]; injection Hi; auto.
  - rewrite <- positions_count. apply Nat.le_antisymm; apply NoDup_incl_length; auto.
    + apply NoDup_filter, seq_NoDup.
    + intros i Hi. apply I. now apply positions_In.
    + intros i Hi. apply positions_In. now apply I.
Qed.
Lemma two_valued_back ssp sp n k x : two_valued ssp sp n k x -> substituted (repeat ssp n) (positions_of sp x) sp x /\
  subset_of_size (fun i => i < n) k (positions_of sp x).
Proof.
  intros [L [F C]]. split.
  - split; [now rewrite repeat_length|]. intros i a Ha. apply nth_error_repeat_inv in Ha. destruct Ha as [Hi ->]. split.
    + apply positions_In.
    + intros Y. destruct (nth_error x i) as [z|] eqn:E; [|apply nth_error_None in E; lia]. rewrite Forall_forall in F.
      destruct (F z (nth_error_In _ _ E)) as [Ez|Ez]; [now subst|]; subst z. exfalso. apply Y. now apply positions_In.
  - split; [apply NoDup_filter, seq_NoDup|]. split; [now rewrite positions_count|]. intros i Hi. apply positions_In in Hi. rewrite <- L. apply nth_error_Some. congruence.
Qed.
Lemma placement_flat d w l ssp sp k a : placement d w l ssp sp k a <-> shaped a d w l /\ two_valued ssp sp (d * w * l) k (concat (concat a)).
Proof.
  unfold placement, two_valued. split.
  - intros [SH [H C]]. split; [assumption|]. split; [apply (shaped_concat SH)|]. split; [|assumption]. apply Forall_forall. intros z Hz. apply In_entry in Hz.
    destruct Hz as [i [j [m E]]]. eapply H; eauto.
  - intros [SH [_ [F C]]]. split; [assumption|]. split; [|assumption]. intros i j m z E. rewrite Forall_forall in F. apply F. eapply entry_In; eauto.
Qed.

Lemma gen_speckle_loop_spec d w l ssp sp : 0 < d -> 0 < w -> 0 < l -> supported ssp -> supported sp -> forall combs,
  (forall S, In S combs -> forall i, In i S -> i < d * w * l) -> forall hp,
  let (t, hp') := gen_speckle_loop hp ssp sp d w l combs in
  stop t = None /\ (exists ext, hp' = hp ++ ext) /\ (forall g, live hp g -> live hp' g) /\ Forall (live hp') (items t) /\
  mapM (to_array hp') (items t) = Ok (map (fun S => reshape d w l (puts (repeat ssp (d * w * l)) S sp)) combs).
Proof.
  intros Hd Hw Hl S1 S2. induction combs as [|S combs IH]; intros HS hp; cbn [gen_speckle_loop].
  - cbn. split; [reflexivity|]. split; [exists []; now rewrite app_nil_r|]. split; [auto|]. split; [constructor|reflexivity].
  - unfold speckle_at. rewrite put_ok by (intros i Hi; rewrite repeat_length; apply (HS S); [now left|assumption]). cbn [bind].
    set (out := puts (repeat ssp (d * w * l)) S sp). assert (Lo : length out = d * w * l) by (unfold out; now rewrite puts_length, repeat_length).
    destruct (reshape_shaped Lo) as [R1 R2].
    assert (HZ : forall z, In z (concat (concat (reshape d w l out))) -> supported z).
    { rewrite R2. intros z Hz. assert (Sub : substituted (repeat ssp (d * w * l)) S sp out).
      { apply puts_substituted. intros i Hi. rewrite repeat_length. apply (HS S); [now left|assumption]. }
      apply In_nth_error in Hz. destruct Hz as [i Hi]. assert (i < d * w * l) by (rewrite <- Lo; apply nth_error_Some; congruence).
      destruct Sub as [_ Sub]. destruct (Sub i ssp) as [A B]; [now apply nth_error_repeat'|].
      destruct (in_dec Nat.eq_dec i S) as [Y|Y]; [rewrite (A Y) in Hi|rewrite (B Y) in Hi]; injection Hi as <-; assumption. }
    destruct (@from_array_ok hp _ _ _ _ R1 Hd Hw Hl HZ) as [g [hp1 [c [F1 [F2 [F3 [F4 [F5 [F6 [[ext F7] _]]]]]]]]]].
    rewrite F1. specialize (IH (fun S' H' => HS S' (or_intror H')) hp1).
    destruct (gen_speckle_loop hp1 ssp sp d w l combs) as [t hp2]. destruct IH as [I1 [[ext2 I2] [I3 [I4 I5]]]].
    cbn. split; [assumption|]. split; [exists (ext ++ ext2); now rewrite I2, F7, app_assoc|].
    split; [intros g0 L0; apply I3; eapply live_new_array; eauto|].
    split; [constructor; auto|].
    assert (E : to_array hp2 g = Ok (reshape d w l out)).
    { subst hp2. rewrite (to_array_of (contents_app ext2 F2) F3 Hd Hw Hl). now rewrite F4. }
    rewrite E. cbn. rewrite I5. reflexivity.
Qed.

Lemma NoDup_map_FOP A B (f : A -> B) (R : A -> A -> Prop) l : ForallOrdPairs (fun a b => ~ R a b) l ->
  (forall a b, In a l -> In b l -> f a = f b -> R a b) -> NoDup (map f l).
Proof.
  induction 1 as [|a l Ha F IH]; intros H; cbn; [constructor|]. constructor.
  - intros I. apply in_map_iff in I. destruct I as [b [E Hb]]. rewrite Forall_forall in Ha. apply (Ha b Hb). apply H; auto; [now left|now right].
  - apply IH. intros; apply H; auto; now right.
Qed.

Lemma C03_lemma hp ssp sp d w l noa : 0 < d -> 0 < w -> 0 < l -> supported (sp_Z ssp) -> supported (sp_Z sp) -> sp_Z ssp <> sp_Z sp ->
  let (t, hp') := gen_speckle hp ssp (d, w, l) sp (Z.of_nat noa) in
  stop t = None /\ (forall g, live hp g -> live hp' g) /\ Forall (live hp') (items t) /\
  exists arrs, mapM (to_array hp') (items t) = Ok arrs /\
    Forall (placement d w l (sp_Z ssp) (sp_Z sp) noa) arrs /\
    (forall a, placement d w l (sp_Z ssp) (sp_Z sp) noa a -> In a arrs) /\
    NoDup arrs /\ length arrs = binom (d * w * l) noa.
Proof.
  intros Hd Hw Hl S1 S2 N. unfold gen_speckle, combinations. destruct (Z.ltb_spec (Z.of_nat noa) 0); [lia|]. rewrite Nat2Z.id.
  destruct (@combos_all_subsets (fun i => i < d * w * l) (range (d * w * l)) noa) as [A1 [A2 A3]].
  { apply seq_NoDup. } { intros i. unfold range. rewrite in_seq. lia. }
  assert (HS : forall S, In S (combos (range (d * w * l)) noa) -> forall i, In i S -> i < d * w * l).
  { intros S Hs. rewrite Forall_forall in A1. apply (A1 S Hs). }
  pose proof (@gen_speckle_loop_spec d w l (sp_Z ssp) (sp_Z sp) Hd Hw Hl S1 S2 _ HS hp) as G.
  destruct (gen_speckle_loop hp (sp_Z ssp) (sp_Z sp) d w l (combos (range (d * w * l)) noa)) as [t hp'].
  destruct G as [G1 [_ [G3 [G4 G5]]]]. split; [assumption|]. split; [assumption|]. split; [assumption|].
  eexists. split; [exact G5|]. set (out := fun S => puts (repeat (sp_Z ssp) (d * w * l)) S (sp_Z sp)).
  assert (Sub : forall S, In S (combos (range (d * w * l)) noa) -> substituted (repeat (sp_Z ssp) (d * w * l)) S (sp_Z sp) (out S)).
  { intros S Hs. apply puts_substituted. intros i Hi. rewrite repeat_length. eapply HS; eauto. }
  assert (TV : forall S, In S (combos (range (d * w * l)) noa) -> two_valued (sp_Z ssp) (sp_Z sp) (d * w * l) noa (out S) /\
     forall i, In i S <-> nth_error (out S) i = Some (sp_Z sp)).
  { intros S Hs. rewrite Forall_forall in A1. destruct (A1 S Hs) as [ND [L B]].
    destruct (@two_valued_sub (sp_Z ssp) (sp_Z sp) (d * w * l) S (out S) N B ND (Sub S Hs)) as [T1 T2]. rewrite L in T1. auto. }
  assert (RS : forall S, In S (combos (range (d * w * l)) noa) -> shaped (reshape d w l (out S)) d w l /\ concat (concat (reshape d w l (out S))) = out S).
  { intros S Hs. apply reshape_shaped. apply (TV S Hs). }
  split; [|split; [|split]].
  - apply Forall_map. apply Forall_forall. intros S Hs. destruct (RS S Hs) as [R1 R2]. apply placement_flat. split; [assumption|]. fold (out S). rewrite R2. apply (TV S Hs).
  - intros a P. apply placement_flat in P. destruct P as [SH T]. destruct (two_valued_back T) as [B1 B2].
    destruct (A2 _ B2) as [S' [H1 H2]]. apply in_map_iff. exists S'. split; [|assumption].
    destruct (RS S' H1) as [R1 R2]. apply (shaped_inj R1 SH). fold (out S') in *. rewrite R2.
    apply (@substituted_fun (repeat (sp_Z ssp) (d * w * l)) S' (positions_of (sp_Z sp) (concat (concat a))) (sp_Z sp)); auto.
    intros i. symmetry. apply H2.
  - apply (NoDup_map_FOP A3). intros S S' Hs Hs' E. fold (out S) in E. fold (out S') in E.
    assert (E' : out S = out S') by (rewrite <- (proj2 (RS S Hs)), <- (proj2 (RS S' Hs')); now rewrite E).
    intros i. rewrite (proj2 (TV S Hs) i), (proj2 (TV S' Hs') i), E'. tauto.
  - rewrite map_length, combos_length. unfold range. now rewrite seq_length.
Qed.

(** *** get_cell *)
Lemma flat_map_map A B C (f : B -> list C) (g : A -> B) l : flat_map f (map g l) = flat_map (fun x => f (g x)) l.
Proof. induction l; cbn; congruence. Qed.
Definition pos_planes (d w l : nat) : list (list (list (nat * nat * nat))) :=
  map (fun c => map (fun b => map (fun a => (c, b, a)) (range l)) (range w)) (range d).
Lemma yield_position_planes d w l : yield_position d w l = concat (concat (pos_planes d w l)).
Proof.
  unfold yield_position, pos_planes. induction (range d) as [|c r IH]; cbn; [reflexivity|]. rewrite concat_app, IH. f_equal.
  rewrite flat_map_concat_map. reflexivity.
Qed.
Lemma pos_planes_shaped d w l : shaped (pos_planes d w l) d w l.
Proof.
  unfold pos_planes, range. split; [now rewrite map_length, seq_length|]. apply Forall_map, Forall_forall. intros c _.
  split; [now rewrite map_length, seq_length|]. apply Forall_map, Forall_forall. intros b _. now rewrite map_length, seq_length.
Qed.
Lemma nth_error_range n i : i < n -> nth_error (range n) i = Some i.
Proof. intros H. unfold range. rewrite (nth_error_nth' _ 0) by now rewrite seq_length. now rewrite seq_nth. Qed.
Lemma pos_planes_entry d w l i j k : i < d -> j < w -> k < l -> entry (pos_planes d w l) i j k = Some (i, j, k).
Proof.
  intros Hi Hj Hk. unfold entry, pos_planes. rewrite nth_error_map, nth_error_range by assumption. cbn.
  rewrite nth_error_map, nth_error_range by assumption. cbn. now rewrite nth_error_map, nth_error_range by assumption.
Qed.
Lemma Nc_nonzero n : 0 < n -> Nc n <> 0%Qc.
Proof. intros H E. unfold Nc in E. rewrite <- Zc_0 in E. apply Zc_inj in E. lia. Qed.

Lemma C07_lemma hp s : live hp (c_grid s) ->
  let d := g_depth (c_grid s) in let w := g_width (c_grid s) in let l := g_length (c_grid s) in
  exists bas pos num, get_cell hp s = Ok (bas, pos, num) /\ length pos = d * w * l /\ length num = d * w * l /\
  bas = V3 (vscale (Zc (Z.of_nat d)) (vx (c_m s))) (vscale (Zc (Z.of_nat w)) (vy (c_m s))) (vscale (Zc (Z.of_nat l)) (vz (c_m s))) /\
  (forall i j k, i < d -> j < w -> k < l -> exists sp p,
     grid_get hp (c_grid s) (Z.of_nat i, Z.of_nat j, Z.of_nat k) = Ok sp /\
     nth_error num ((i * w + j) * l + k) = Some (sp_Z sp) /\
     nth_error pos ((i * w + j) * l + k) = Some p /\
     vec_mat p bas = vec_mat (vecZ (V3 (Z.of_nat i) (Z.of_nat j) (Z.of_nat k))) (c_m s)) /\
  (forall n, n < d * w * l -> exists i j k, i < d /\ j < w /\ k < l /\ n = (i * w + j) * l + k).
Proof.
  intros LV d w l. pose proof (live_inv LV) as I. destruct (contents_spec I) as [c [Ec [SH HE]]]. pose proof I as [P1 [P2 [P3 _]]].
  pose proof (to_array_of Ec SH P1 P2 P3) as ET. unfold get_cell. rewrite ET. cbn [bind]. fold d w l in SH, HE, P1, P2, P3. fold d w l.
  eexists. eexists. eexists. split; [reflexivity|]. rewrite map_length, yield_position_planes.
  split; [apply (shaped_concat (pos_planes_shaped d w l))|]. split; [apply (shaped_concat (shaped_map sp_Z SH))|]. split; [reflexivity|]. split.
  - intros i j k Hi Hj Hk. destruct (HE i j k Hi Hj Hk) as [sp [E1 E2]]. exists sp. eexists. split; [apply E2; repeat split; auto|].
    split; [rewrite (nth_concat2 (shaped_map sp_Z SH)) by assumption; rewrite entry_map, E1; reflexivity|].
    split; [rewrite nth_error_map, (nth_concat2 (pos_planes_shaped d w l)), pos_planes_entry by assumption; reflexivity|].
    pose proof (Nc_nonzero P1) as N1. pose proof (Nc_nonzero P2) as N2. pose proof (Nc_nonzero P3) as N3.
    destruct (c_m s) as [[a1 a2 a3] [b1 b2 b3] [c1 c2 c3]]. unfold vec_mat, vscale, vadd, vecZ, vmap. cbn. change (Zc (Z.of_nat i)) with (Nc i).
    change (Zc (Z.of_nat j)) with (Nc j). change (Zc (Z.of_nat k)) with (Nc k).
    change (Zc (Z.of_nat d)) with (Nc d). change (Zc (Z.of_nat w)) with (Nc w). change (Zc (Z.of_nat l)) with (Nc l).
    f_equal; field; auto.
  - intros n Hn. assert (l <> 0) by (unfold l; lia). assert (w <> 0) by (unfold w; lia).
    exists (n / l / w), ((n / l) mod w), (n mod l).
    assert (n / l < d * w) by (apply Nat.div_lt_upper_bound; lia).
    split; [apply Nat.div_lt_upper_bound; lia|]. split; [now apply Nat.mod_upper_bound|]. split; [now apply Nat.mod_upper_bound|].
    rewrite (Nat.mul_comm (n / l / w) w), <- Nat.div_mod by assumption. rewrite (Nat.mul_comm (n / l) l). now apply Nat.div_mod.
Qed.
Lemma C04_lemma hp arr d w l : shaped arr d w l -> 0 < d -> 0 < w -> 0 < l ->
  (forall i j k z, entry arr i j k = Some z -> supported z) ->
  exists g hp', from_array hp arr = Ok (g, hp') /\ live hp' g /\ to_array hp' g = Ok arr.
Proof.
  intros SH Hd Hw Hl HS. destruct (@from_array_ok hp arr d w l SH Hd Hw Hl) as [g [hp' [c [F1 [F2 [F3 [F4 [F5 [F6 _]]]]]]]]].
  - intros z Hz. apply In_entry in Hz. destruct Hz as [i [j [k Hz]]]. eauto.
  - exists g, hp'. auto.
Qed.
Lemma C04_unknown hp arr i j k z : entry arr i j k = Some z -> ~ supported z -> from_array hp arr = Raise IndexError.
Proof. intros E. apply from_array_unknown. eapply entry_In; eauto. Qed.
