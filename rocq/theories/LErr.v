(** Lemmas for property C90: which inputs are refused. *)
From Coq Require Import String.
From Verif Require Import Base BaseQ MElement MSort MGeneralCell MComb MSogen MGrid MLegacy MHnf MArrange MIO SElement SGrid SLattice SErr LSort LGeneralCell LGrid LGrid2 SSubst LMat3 LSuper LComb SIO LIO6.
From Verif Require MBucky.
Notation length := List.length.
Open Scope list_scope.
Set Implicit Arguments.
Unset Strict Implicit.

(** *** Grids *)
Lemma no_entry A (a : list (list (list A))) : size_of a = 0%nat <-> forall i j k v, entry a i j k <> Some v.
Proof.
  unfold size_of. split.
  - intros H i j k v E. unfold entry in E. destruct (nth_error a i) as [p|] eqn:E1; [|discriminate].
    destruct (nth_error p j) as [r|] eqn:E2; [|discriminate].
    apply nth_error_In in E, E1, E2. assert (I : In v (concat (concat a))).
    { apply in_concat. exists r. split; [|assumption]. apply in_concat. exists p. auto. }
    destruct (concat (concat a)); [easy|discriminate].
  - intros H. destruct (concat (concat a)) as [|v t] eqn:E; [reflexivity|].
    assert (I : In v (concat (concat a))) by (rewrite E; now left).
    apply in_concat in I. destruct I as (r & I & V). apply in_concat in I. destruct I as (p & P & R).
    apply In_nth_error in P, R, V. destruct P as [i P]. destruct R as [j R]. destruct V as [k V].
    exfalso. apply (H i j k v). unfold entry. rewrite P, R. exact V.
Qed.
Lemma shape_exists A (a : list (list (list A))) : (exists d w l, shaped a d w l) -> let '(d, w, l) := shape_of a in shaped a d w l.
Proof.
  intros (d & w & l & L & F). destruct a as [|[|r p] a]; cbn.
  - split; [reflexivity|constructor].
  - inversion F as [|? ? [W _] F']; subst. cbn in *. split; [reflexivity|]. constructor; [split; [reflexivity|constructor]|].
    apply Forall_impl with (2 := F'). intros q [Q _]. destruct q; [|discriminate]. split; [reflexivity|constructor].
  - inversion F as [|? ? [W R] F']; subst. inversion R; subst. split; [reflexivity|exact F].
Qed.
Lemma to_array_cases hp g a : contents hp g = Ok a ->
  (~ (exists d w l, shaped a d w l) -> to_array hp g = Raise AttributeError) /\
  ((exists d w l, shaped a d w l) -> (forall i j k v, entry a i j k <> Some v) -> to_array hp g = Raise ValueError) /\
  ((exists d w l, shaped a d w l) -> (exists i j k v, entry a i j k = Some v) -> to_array hp g = Ok (map (map (map sp_Z)) a)).
Proof.
  intros E. unfold to_array. rewrite E. cbn [bind]. pose proof (@shape_exists _ a) as S.
  destruct (shape_of a) as [[d w] l]. split; [|split].
  - intros N. destruct (rectangular a d w l) eqn:R; [|reflexivity]. exfalso. apply N. exists d, w, l. now apply rectangular_shaped.
  - intros X N. apply no_entry in N. rewrite (proj2 (rectangular_shaped _ _ _ _) (S X)), N. reflexivity.
  - intros X (i & j & k & v & V). rewrite (proj2 (rectangular_shaped _ _ _ _) (S X)). cbn [negb].
    destruct (Nat.eqb (size_of a) 0) eqn:Z; [|reflexivity]. apply Nat.eqb_eq in Z. exfalso. exact (proj1 (no_entry _) Z _ _ _ _ V).
Qed.
Lemma from_array_cases hp arr d w l : shaped arr d w l ->
  ((forall i j k v, entry arr i j k <> Some v) -> from_array hp arr = Raise ValueError) /\
  ((exists i j k v, entry arr i j k = Some v /\ ~ supported v) -> from_array hp arr = Raise IndexError) /\
  ((exists i j k v, entry arr i j k = Some v) -> (forall i j k v, entry arr i j k = Some v -> supported v) ->
     exists g hp', from_array hp arr = Ok (g, hp')).
Proof.
  intros SH. split; [|split].
  - intros N. apply no_entry in N. unfold from_array. now rewrite N.
  - intros (i & j & k & v & E & U). exact (C04_unknown hp E U).
  - intros (i & j & k & v & E) S. destruct (entry_range SH E) as (? & ? & ?).
    destruct (@C04_lemma hp arr d w l SH) as (g & hp' & G & _); [lia|lia|lia|exact S|]. eauto.
Qed.

Lemma regular_shaped A (a : list (list (list A))) : regular a <-> exists d w l, shaped a d w l.
Proof.
  split.
  - intros [H1 H2]. destruct (concat a) as [|r0 t] eqn:E.
    + exists (length a), 0%nat, 0%nat. split; [reflexivity|]. apply Forall_forall. intros p P.
      assert (p = []) as ->; [|split; [reflexivity|constructor]]. destruct p as [|r p]; [reflexivity|].
      assert (I : In r (concat a)) by (apply in_concat; exists (r :: p); cbn; auto). rewrite E in I. easy.
    + assert (I : In r0 (concat a)) by (rewrite E; now left). apply in_concat in I. destruct I as (p0 & P0 & R0).
      exists (length a), (length p0), (length r0). split; [reflexivity|]. apply Forall_forall. intros p P. split; [now apply H1|].
      apply Forall_forall. intros r R. now apply (H2 p p0).
  - intros (d & w & l & L & F). rewrite Forall_forall in F. split.
    + intros p q P Q. destruct (F p P) as [-> _]. destruct (F q Q) as [-> _]. reflexivity.
    + intros p q r s P Q R S. destruct (F p P) as [_ X]. destruct (F q Q) as [_ Y]. rewrite Forall_forall in X, Y. now rewrite (X r R), (Y s S).
Qed.
Lemma hollow_entry A (a : list (list (list A))) : hollow a <-> forall i j k v, entry a i j k <> Some v.
Proof.
  rewrite <- no_entry. unfold size_of, hollow. split.
  - intros H. destruct (concat (concat a)) as [|v t] eqn:E; [reflexivity|].
    assert (I : In v (concat (concat a))) by (rewrite E; now left).
    apply in_concat in I. destruct I as (r & I & V). apply in_concat in I. destruct I as (p & P & R). exfalso. eapply H; eauto.
  - intros H p r x P R X. assert (I : In x (concat (concat a))).
    { apply in_concat. exists r. split; [|assumption]. apply in_concat. exists p. auto. }
    destruct (concat (concat a)); [easy|discriminate].
Qed.

(** *** Grids in the plane *)
Lemma new2_cases sites : SitesGrid2d_new sites = match sites with [] => Raise IndexError | r :: _ => Ok (mkGrid2 sites (length sites) (length r)) end.
Proof. destruct sites; reflexivity. Qed.
Lemma concat_nil A (a : list (list A)) : length (concat a) = 0%nat <-> forall r, In r a -> r = [].
Proof.
  induction a as [|r a IH]; cbn; [split; [easy|reflexivity]|]. rewrite app_length. split.
  - intros H r' [<-|I]; [destruct r; [reflexivity|cbn in H; lia]|]. apply IH; [lia|assumption].
  - intros H. rewrite (H r) by now left. cbn. apply IH. auto.
Qed.
Lemma get_array2_cases sites g : SitesGrid2d_new sites = Ok g ->
  ((exists r r', In r sites /\ In r' sites /\ length r <> length r') -> get_array2 g = Raise AttributeError) /\
  ((forall r, In r sites -> r = []) -> get_array2 g = Raise ValueError) /\
  ((forall r r', In r sites -> In r' sites -> length r = length r') -> (exists r, In r sites /\ r <> []) ->
     get_array2 g = Ok (map (map sp_Z) sites)).
Proof.
  rewrite new2_cases. destruct sites as [|r0 t]; [discriminate|]. intros H. set (sites := r0 :: t) in *. assert (Eg : g = mkGrid2 sites (length sites) (length r0)) by congruence. subst g. clear H.
  unfold get_array2. cbn [g2_sites g2_length]. split; [|split].
  - intros (r & r' & I & I' & N). destruct (forallb (fun r => length r =? length r0) sites)%nat eqn:F; [|reflexivity].
    rewrite forallb_forall in F. pose proof (F _ I) as X. pose proof (F _ I') as Y. apply Nat.eqb_eq in X, Y. congruence.
  - intros H. replace (forallb (fun r => length r =? length r0) sites)%nat with true.
    + cbn [negb]. now rewrite (proj2 (concat_nil _) H).
    + symmetry. apply forallb_forall. intros r I. rewrite (H r I), (H r0) by now left. reflexivity.
  - intros H (r & I & N). replace (forallb (fun r => length r =? length r0) sites)%nat with true.
    + cbn [negb]. destruct (length (concat sites) =? 0)%nat eqn:Z; [|reflexivity].
      apply Nat.eqb_eq in Z. exfalso. exact (N (proj1 (concat_nil _) Z r I)).
    + symmetry. apply forallb_forall. intros r' I'. apply Nat.eqb_eq. apply H; [assumption|now left].
Qed.
Lemma from_array2_cases arr : ((forall r, In r arr -> r = []) -> from_array2 arr = Raise ValueError) /\
  ((exists r, In r arr /\ r <> []) -> from_array2 arr = Raise AttributeError).
Proof.
  unfold from_array2. split.
  - intros H. now rewrite (proj2 (concat_nil _) H).
  - intros (r & I & N). destruct (length (concat arr) =? 0)%nat eqn:Z; [|reflexivity]. apply Nat.eqb_eq in Z.
    exfalso. exact (N (proj1 (concat_nil _) Z r I)).
Qed.

(** *** The periodic copy of a grid *)
Lemma append_first_cases A (l : list A) : append_first l = match l with [] => Raise IndexError | x :: _ => Ok (l ++ [x]) end.
Proof. destruct l; reflexivity. Qed.
Lemma mapM_raises A B (f : A -> res B) e l : (forall x e', f x = Raise e' -> e' = e) -> (exists x, In x l /\ f x = Raise e) -> mapM f l = Raise e.
Proof.
  intros H. induction l as [|y l IH]; intros (x & I & E); [easy|]. cbn. destruct (f y) as [b|e'] eqn:Y.
  - destruct I as [->|I]; [congruence|]. cbn. rewrite IH by eauto. reflexivity.
  - cbn. now rewrite (H _ _ Y).
Qed.
Lemma mapM_only A B (f : A -> res B) e l e' : (forall x e', f x = Raise e' -> e' = e) -> mapM f l = Raise e' -> e' = e.
Proof.
  intros H. induction l as [|y l IH]; cbn; [discriminate|]. destruct (f y) eqn:Y; cbn.
  - destruct (mapM f l); cbn; [discriminate|]. intros [= ->]. auto.
  - intros [= ->]. eauto.
Qed.
Lemma append_first_only A (l : list A) e : append_first l = Raise e -> e = IndexError.
Proof. destruct l; cbn; congruence. Qed.
Lemma append_first_In A (l p : list A) x : append_first l = Ok p -> In x p <-> In x l.
Proof. destruct l; cbn; [discriminate|]. intros [= <-]. cbn. rewrite in_app_iff. cbn. tauto. Qed.
Lemma mapM_In A B (f : A -> res B) l l' : mapM f l = Ok l' -> forall x, In x l -> exists y, In y l' /\ f x = Ok y.
Proof.
  revert l'. induction l as [|a l IH]; cbn; intros l' H x I; [easy|]. destruct (f a) as [b|] eqn:E; [|discriminate]. cbn in H.
  destruct (mapM f l) as [t|]; [|discriminate]. cbn in H. injection H as <-. destruct I as [->|I]; [exists b; cbn; auto|].
  destruct (IH _ eq_refl _ I) as (y & Y & F). exists y. cbn. auto.
Qed.
Lemma pool_sites_cases arr :
  (arr = [] \/ In [] arr \/ (exists p, In p arr /\ In [] p) -> pool_sites arr = Raise IndexError) /\
  (arr <> [] -> ~ In [] arr -> (forall p, In p arr -> ~ In [] p) -> exists pool, pool_sites arr = Ok pool).
Proof.
  unfold pool_sites. split.
  - intros H. destruct (append_first arr) as [p1|e] eqn:E1; cbn [bind]; [|now rewrite (append_first_only E1)].
    destruct (mapM (@append_first _) p1) as [p2|e] eqn:E2; cbn [bind].
    2: { f_equal. apply (@mapM_only _ _ _ IndexError _ _ (@append_first_only _) E2). }
    destruct H as [->|[H|(p & P & R)]]; [discriminate| |].
    + exfalso. apply (append_first_In _ E1) in H. destruct (mapM_In E2 H) as (y & _ & Y). discriminate.
    + apply (append_first_In _ E1) in P. destruct (mapM_In E2 P) as (y & Y & F). apply mapM_raises.
      * intros q e'. apply mapM_only. apply append_first_only.
      * exists y. split; [assumption|]. apply mapM_raises; [intros ? ?; apply append_first_only|]. exists []. split; [|reflexivity].
        now apply (append_first_In _ F).
  - intros N1 N2 N3. destruct (append_first arr) as [p1|e] eqn:E1; cbn [bind]; [|destruct arr; [easy|discriminate]].
    assert (X : forall p, In p p1 -> exists p', append_first p = Ok p').
    { intros p P. apply (append_first_In _ E1) in P. destruct p; [easy|]. cbn. eauto. }
    destruct (mapM (@append_first _) p1) as [p2|e] eqn:E2; cbn [bind].
    + assert (Y : forall q, In q p2 -> ~ In [] q).
      { intros q Q. assert (In q p2 -> exists p, In p p1 /\ append_first p = Ok q) as Z.
        { clear -E2. revert p2 E2. induction p1 as [|a l IH]; cbn; intros p2 E2 I; [injection E2 as <-; easy|].
          destruct (append_first a) as [b|] eqn:E; [|discriminate]. cbn in E2. destruct (mapM _ l) as [t|]; [|discriminate]. cbn in E2. injection E2 as <-.
          destruct I as [->|I]; [exists a; auto|]. destruct (IH _ eq_refl I) as (p & ? & ?). exists p. auto. }
        destruct (Z Q) as (p & P & A). apply (append_first_In _ E1) in P. intros I. apply (append_first_In _ A) in I. exact (N3 _ P I). }
      clear -Y. induction p2 as [|q p2 IH]; cbn; [eauto|].
      assert (W : exists q', mapM (@append_first _) q = Ok q').
      { assert (Q : ~ In [] q) by (apply Y; now left). clear -Q. induction q as [|r q IH]; cbn; [eauto|]. destruct r as [|z r]; [exfalso; apply Q; now left|].
        cbn. destruct IH as [q' ->]; [intros I; apply Q; now right|]. cbn. eauto. }
      destruct W as [q' ->]. cbn. destruct IH as [p' ->]; [intros; apply Y; now right|]. cbn. eauto.
    + exfalso. clear -X E2. revert e E2. induction p1 as [|a l IH]; cbn; intros e E2; [discriminate|].
      destruct (X a) as [b B]; [now left|]. rewrite B in E2. cbn in E2. destruct (mapM _ l) as [t|e'] eqn:E; cbn in E2; [discriminate|].
      apply (IH (fun p I => X p (or_intror I)) e'). reflexivity.
Qed.
Lemma perm_cell_cases ops pos :
  (pos = [] -> ops <> [] -> get_permutation_cell ops pos = Raise ValueError) /\
  (pos <> [] \/ ops = [] -> exists perms, get_permutation_cell ops pos = Ok perms /\ length perms = length ops).
Proof.
  unfold get_permutation_cell. split.
  - intros -> N. destruct ops; [easy|]. reflexivity.
  - intros [N| ->]; [|exists []; auto]. induction ops as [|o ops IH]; [exists []; auto|].
    destruct IH as (l & E & L). cbn [mapM]. rewrite E.
    assert (X : exists s, new_id_seq 5 (map (apply_op o) pos) = Ok s) by (destruct pos; [easy|]; eexists; reflexivity).
    destruct X as [s ->]. cbn [bind]. exists (s :: l). split; [reflexivity|]. cbn. now rewrite L.
Qed.

(** *** Negative numbers of substituted sites *)
Lemma combinations_neg A (l : list A) n : (n < 0)%Z -> combinations l n = Raise ValueError.
Proof. intros H. unfold combinations. now rewrite (proj2 (Z.ltb_lt _ _) H). Qed.

(** *** Supercells *)
Open Scope Z_scope.
Lemma amax_neg m : (amax m <=? 0) = true <-> ~ some_pos m.
Proof. rewrite Z.leb_le. unfold amax, vmax, some_pos. lia. Qed.
Lemma get_frac_cases m :
  (zdet m = 0 -> get_frac_from_mat m = Raise LinAlgError) /\
  (zdet m <> 0 -> ~ some_pos m -> get_frac_from_mat m = Raise ValueError) /\
  (zdet m <> 0 -> some_pos m -> exists pts, get_frac_from_mat m = Ok pts).
Proof.
  unfold get_frac_from_mat. split; [|split]; intros D.
  - now rewrite (inv_matZ_singular D).
  - intros N. apply amax_neg in N. rewrite (inv_matZ D). cbn [bind]. now rewrite N.
  - intros P. rewrite (inv_matZ D). cbn [bind]. destruct (amax m <=? 0) eqn:E; [|eauto]. apply amax_neg in E. tauto.
Qed.
Lemma concat_len A B (f : A -> list B) k l : (forall a, length (f a) = k) -> length (concat (map f l)) = (length l * k)%nat.
Proof. intros H. induction l; cbn; [reflexivity|]. now rewrite app_length, IHl, H. Qed.
Lemma supercell_cases c m : length (positions c) = length (numbers c) ->
  (zdet m = 0 -> supercell c m = Raise LinAlgError) /\
  (zdet m <> 0 -> positions c = [] -> supercell c m = Raise ValueError) /\
  (zdet m <> 0 -> ~ some_pos m -> supercell c m = Raise ValueError) /\
  (zdet m <> 0 -> some_pos m -> diag_prod m < 0 -> supercell c m = Raise ValueError) /\
  (forall pts, get_frac_from_mat m = Ok pts -> positions c <> [] -> 0 <= diag_prod m ->
     (pts = [] -> supercell c m = Raise ValueError) /\
     (pts <> [] -> diag_prod m < Z.of_nat (length pts) -> supercell c m = Raise IndexError) /\
     (pts <> [] -> Z.of_nat (length pts) <= diag_prod m -> exists g, supercell c m = Ok g)).
Proof.
  intros LN. unfold supercell, build_supercell. destruct (get_frac_cases m) as (A & B & C).
  split; [intros D; now rewrite (inv_matZ_singular D)|].
  split; [intros D E; rewrite (inv_matZ D), E; cbn [bind map np_concatenate]|].
  { destruct (get_frac_from_mat m) as [pts|e] eqn:G; cbn [bind]; [reflexivity|].
    assert (some_pos m \/ ~ some_pos m) as [P|P] by (unfold some_pos; lia); [destruct (C D P); discriminate|].
    pose proof (B D P) as W. clear -W. congruence. }
  split; [intros D N; rewrite (inv_matZ D); cbn [bind]; now rewrite (B D N)|].
  split.
  { intros D P N. destruct (C D P) as [pts E]. rewrite (inv_matZ D). cbn [bind]. rewrite E. cbn [bind].
    match goal with |- context [np_concatenate ?l] => destruct (np_concatenate l) as [q|e] eqn:Q end; cbn [bind].
    - unfold np_repeat. now rewrite (proj2 (Z.ltb_lt _ _) N).
    - unfold np_concatenate in Q. match goal with Q : context [match ?l with _ => _ end] |- _ => destruct l; [congruence|discriminate] end. }
  intros pts G NE DP.
  assert (D : zdet m <> 0) by (intros D; rewrite (A D) in G; discriminate).
  rewrite (inv_matZ D). cbn [bind]. rewrite G. cbn [bind].
  set (l := map (fun x => map (fun y => vadd x y) pts) (map (fun p => vec_mat p (mdiv (zadj m) (zdet m))) (positions c))).
  assert (EL : np_concatenate l = Ok (concat l)). { unfold l. destruct (positions c); [easy|reflexivity]. }
  rewrite EL. cbn [bind]. unfold np_repeat. rewrite (proj2 (Z.ltb_ge _ _) DP). cbn [bind].
  assert (L1 : length (concat l) = (length (positions c) * length pts)%nat).
  { unfold l. rewrite (@concat_len _ _ _ (length pts)); [now rewrite map_length|]. intros. apply map_length. }
  set (ns := concat (map (fun x => repeat x (Z.to_nat (diag_prod m))) (numbers c))).
  assert (L2 : length ns = (length (positions c) * Z.to_nat (diag_prod m))%nat).
  { unfold ns. rewrite (@concat_len _ _ _ (Z.to_nat (diag_prod m))); [now rewrite LN|]. intros. apply repeat_length. }
  assert (P0 : (0 < length (positions c))%nat) by (destruct (positions c); [easy|cbn; lia]).
  pose proof (@C10_lemma (mat_mul (matZ m) (lattice c)) (concat l) ns) as (K1 & K2 & K3). rewrite L1, L2 in K2. rewrite L1, L2 in K3.
  split; [|split].
  - intros ->. apply K1. apply length_zero_iff_nil. rewrite L1. cbn. lia.
  - intros N K. apply K2. nia.
  - intros N K. destruct K3 as (g & E & _).
    + intros E. rewrite E in L1. cbn in L1. destruct pts; [easy|]. cbn in L1. nia.
    + nia.
    + eauto.
Qed.

(** *** Files *)
Lemma from_file_missing load cbrt name fmt fs f : choose (match name with None => ""%string | Some n => n end) fmt = Some f ->
  fs (match name with None => ""%string | Some n => n end) = None -> from_file load cbrt name fmt fs = Raise FileNotFoundError.
Proof. intros E H. unfold from_file. now rewrite E, H. Qed.
Lemma missing_file load cbrt name fmt fs : yaml_named name fmt \/ vasp_named name fmt -> fs name = None ->
  from_file load cbrt (Some name) fmt fs = Raise FileNotFoundError.
Proof.
  intros H E. destruct (choose_spec name fmt) as (CY & CV & CN).
  destruct (choose name fmt) as [f|] eqn:C; [|destruct (proj1 CN eq_refl); tauto].
  exact (@from_file_missing load cbrt (Some name) fmt fs f C E).
Qed.

(** *** Collected *)
Lemma to_array_errors hp g a : contents hp g = Ok a ->
  (~ regular a -> to_array hp g = Raise AttributeError) /\
  (regular a -> hollow a -> to_array hp g = Raise ValueError) /\
  (regular a -> ~ hollow a -> to_array hp g = Ok (map (map (map sp_Z)) a)).
Proof.
  intros E. destruct (to_array_cases E) as (A & B & C). rewrite regular_shaped. split; [exact A|]. split.
  - intros R H. apply B; [assumption|]. now apply hollow_entry.
  - intros R H. destruct (Nat.eq_dec (size_of a) 0) as [Z|Z].
    + exfalso. apply H. apply hollow_entry. now apply no_entry.
    + apply C; [assumption|]. unfold size_of in Z. destruct (concat (concat a)) as [|v t] eqn:F; [easy|].
      assert (I : In v (concat (concat a))) by (rewrite F; now left).
      apply in_concat in I. destruct I as (r & I & V). apply in_concat in I. destruct I as (p & P & Q).
      apply In_nth_error in P, Q, V. destruct P as [i P]. destruct Q as [j Q]. destruct V as [k V].
      exists i, j, k, v. unfold entry. now rewrite P, Q.
Qed.
Lemma from_array_errors hp arr : regular arr ->
  (hollow arr -> from_array hp arr = Raise ValueError) /\
  ((exists p r v, In p arr /\ In r p /\ In v r /\ ~ supported v) -> from_array hp arr = Raise IndexError) /\
  (~ hollow arr -> (forall p r v, In p arr -> In r p -> In v r -> supported v) -> exists g hp', from_array hp arr = Ok (g, hp')).
Proof.
  intros R. apply regular_shaped in R. destruct R as (d & w & l & SH). destruct (from_array_cases hp SH) as (A & B & C).
  assert (EN : forall p r v, In p arr -> In r p -> In v r -> exists i j k, entry arr i j k = Some v).
  { intros p r v P Q V. apply In_nth_error in P, Q, V. destruct P as [i P]. destruct Q as [j Q]. destruct V as [k V].
    exists i, j, k. unfold entry. now rewrite P, Q. }
  split; [intros H; apply A; now apply hollow_entry|]. split.
  - intros (p & r & v & P & Q & V & U). destruct (EN _ _ _ P Q V) as (i & j & k & E). apply B. exists i, j, k, v. auto.
  - intros H S. apply C.
    + destruct (concat (concat arr)) as [|v t] eqn:F.
      * exfalso. apply H. apply hollow_entry. apply no_entry. unfold size_of. now rewrite F.
      * assert (I : In v (concat (concat arr))) by (rewrite F; now left).
        apply in_concat in I. destruct I as (r & I & V). apply in_concat in I. destruct I as (p & P & Q).
        destruct (EN _ _ _ P Q V) as (i & j & k & E). exists i, j, k, v. exact E.
    + intros i j k v E. unfold entry in E. destruct (nth_error arr i) as [p|] eqn:E1; [|discriminate].
      destruct (nth_error p j) as [r|] eqn:E2; [|discriminate]. apply nth_error_In in E, E1, E2. eauto.
Qed.
Lemma binom_pos n k : (k <= n)%nat -> (0 < binom n k)%nat.
Proof.
  revert k. induction n as [|n IH]; intros [|k] H; cbn; try lia. specialize (IH k). lia.
Qed.
Lemma negative_count n : n < 0 ->
  (forall o sp, gen_dup_unitary o n sp = mkTrace [] (Some ValueError)) /\
  (forall o wy sp, gen_dup o wy n sp = mkTrace [] (Some ValueError)) /\
  (forall o ele sp, gen_dup_of_ele o ele n sp = mkTrace [] (Some ValueError)) /\
  (forall o sp1 sp2 n2, gen_dup_trinary_alloy o sp1 n sp2 n2 = mkTrace [] (Some ValueError)) /\
  (forall o sp1 sp2 n1, (n1 <= length (numbers (init_cell o)))%nat ->
     gen_dup_trinary_alloy o sp1 (Z.of_nat n1) sp2 n = mkTrace [] (Some ValueError)) /\
  (forall hp ssp size sp, gen_speckle hp ssp size sp n = (mkTrace [] (Some ValueError), hp)) /\
  (forall sp, MBucky.gen_speckle sp n = mkTrace [] (Some ValueError)).
Proof.
  intros N. split; [intros; unfold gen_dup_unitary; now rewrite combinations_neg|].
  split; [intros; unfold gen_dup; now rewrite combinations_neg|].
  split; [intros; unfold gen_dup_of_ele; now rewrite combinations_neg|].
  split; [intros; unfold gen_dup_trinary_alloy; now rewrite combinations_neg|].
  split; [|split; [intros hp ssp [[d w] l] sp; unfold gen_speckle; now rewrite combinations_neg|intros; unfold MBucky.gen_speckle; now rewrite combinations_neg]].
  intros o sp1 sp2 n1 L. unfold gen_dup_trinary_alloy. unfold combinations at 1.
  rewrite (proj2 (Z.ltb_ge _ _)) by lia. rewrite Nat2Z.id.
  assert (X : combos (range (length (numbers (init_cell o)))) n1 <> []).
  { intros E. apply (f_equal (@List.length _)) in E. rewrite combos_length in E. unfold range in E. rewrite seq_length in E. cbn in E.
    pose proof (binom_pos L). lia. }
  destruct (combos (range (length (numbers (init_cell o)))) n1) as [|c t]; [easy|]. cbn [gen_flat]. now rewrite combinations_neg.
Qed.
Lemma negative_nodup h n : n < 0 ->
  (forall o sp, gen_nodup_unitary h o n sp = mkTrace [] (Some ValueError)) /\
  (forall o wy sp, gen_nodup h o wy n sp = mkTrace [] (Some ValueError)) /\
  (forall o ele sp, gen_nodup_of_ele h o ele n sp = mkTrace [] (Some ValueError)) /\
  (forall o sp1 sp2 n2, gen_nodup_trinary_alloy h o sp1 n sp2 n2 = mkTrace [] (Some ValueError)).
Proof.
  intros N. destruct (negative_count N) as (A & B & C & D & _).
  unfold gen_nodup_unitary, gen_nodup, gen_nodup_of_ele, gen_nodup_trinary_alloy, gen_2nodup_gen, gen_2nodup_gen_with.
  repeat split; intros; [rewrite A|rewrite B|rewrite C|rewrite D]; reflexivity.
Qed.
Lemma unpacking delta :
  (forall m d w l zs, length zs <> 3%nat -> get_neighbors m d w l (VTup zs) delta = Raise ValueError) /\
  (forall m d w l, get_neighbors m d w l VNone delta = Raise TypeError /\ forall z, get_neighbors m d w l (VInt z) delta = Raise TypeError) /\
  (forall m w l zs, length zs <> 2%nat -> get_neighbors2 m w l (VTup zs) delta = Raise ValueError) /\
  (forall m w l, get_neighbors2 m w l VNone delta = Raise TypeError /\ forall z, get_neighbors2 m w l (VInt z) delta = Raise TypeError).
Proof.
  split; [|split; [split; reflexivity|split; [|split; reflexivity]]].
  - intros m d w l zs H. destruct zs as [|a [|b [|c [|e zs]]]]; try reflexivity. now cbn in H.
  - intros m w l zs H. destruct zs as [|a [|b [|c zs]]]; try reflexivity. now cbn in H.
Qed.
