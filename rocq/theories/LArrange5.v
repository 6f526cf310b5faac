(** When a neighbour query is a KeyError; histories; 2-D grids. *)
From Verif Require Import Base LBase BaseQ LQ MElement MGrid MArrange SArrange LArrange LArrange2 LArrange3 LGrid2.
Set Implicit Arguments.
Unset Strict Implicit.
Open Scope nat_scope.

Lemma take_not_key A (l : list A) ind : take_idx l ind <> Raise KeyError.
Proof.
  unfold take_idx. induction ind as [|i ind IH]; cbn; [discriminate|].
  unfold get_nth at 1. destruct (nth_error l i); cbn; [|discriminate].
  destruct (mapM (get_nth l) ind); cbn; [discriminate|exact IH].
Qed.
Lemma query_not_key keys sq delta : (do ind <- ball sq delta; item_set keys ind) <> Raise KeyError.
Proof.
  unfold ball. destruct sq as [|q sq]; cbn [bind]; [discriminate|].
  match goal with |- item_set _ ?i <> _ => generalize i end. intros ind. unfold item_set.
  destruct ind as [|i [|j ind]]; [discriminate| |].
  - unfold get_nth. destruct (nth_error keys i); discriminate.
  - pose proof (@take_not_key _ keys (i :: j :: ind)) as K. destruct (take_idx keys (i :: j :: ind)); cbn; [discriminate|]. congruence.
Qed.
Lemma neighbors3_key m d w l x y z delta :
  get_neighbors m d w l (VTup [x; y; z]) delta = Raise KeyError <-> ~ in_grid w l d [x; y; z].
Proof.
  rewrite <- keys3_In. unfold get_neighbors, keys3.
  rewrite (existsb_map (h := conv3) (g := list_eqb Z.eqb [x; y; z])) by (intros; apply (pos_eqb_conv (x, y, z))).
  destruct (existsb (list_eqb Z.eqb [x; y; z]) (map conv3 (p_gen d w l))) eqn:E; cbn [negb].
  - apply existsb_exists in E as (q & I & Q). apply list_eqbZ_eq in Q. subst q.
    split; [intros H; exfalso; revert H; apply query_not_key|tauto].
  - split; [|reflexivity]. intros _ I. assert (existsb (list_eqb Z.eqb [x; y; z]) (map conv3 (p_gen d w l)) = true); [|congruence].
    apply existsb_exists. exists [x; y; z]. split; [assumption|]. now apply list_eqbZ_eq.
Qed.
Lemma midpoint_key s delta : 0 < g_depth (c_grid s) -> 0 < g_width (c_grid s) -> 0 < g_length (c_grid s) ->
  cstru_get_neighbors s (midpoint_val s) delta = Raise KeyError <->
  ~ (g_depth (c_grid s) / 2 < g_width (c_grid s) /\ g_width (c_grid s) / 2 < g_length (c_grid s) /\ g_length (c_grid s) / 2 < g_depth (c_grid s)).
Proof.
  intros _ _ _. unfold cstru_get_neighbors, midpoint_val, get_midpoint. rewrite neighbors3_key.
  assert (H : in_grid (g_width (c_grid s)) (g_length (c_grid s)) (g_depth (c_grid s))
     [Z.of_nat (g_depth (c_grid s) / 2); Z.of_nat (g_width (c_grid s) / 2); Z.of_nat (g_length (c_grid s) / 2)] <->
     (g_depth (c_grid s) / 2 < g_width (c_grid s) /\ g_width (c_grid s) / 2 < g_length (c_grid s) /\ g_length (c_grid s) / 2 < g_depth (c_grid s))).
  { generalize (g_depth (c_grid s) / 2) as a. generalize (g_width (c_grid s) / 2) as b. generalize (g_length (c_grid s) / 2) as c.
    intros c b a. unfold in_grid. split.
    - intros (x & y & z & E & A & B & C). injection E as Ex Ey Ez. lia.
    - intros (A & B & C). eexists _, _, _. split; [reflexivity|]. lia. }
  rewrite H. reflexivity.
Qed.

Lemma run_ops_fst V eqb (none : V) ops : forall s h s' h', run_ops eqb none s h ops = (s', h') -> map fst (rev h') = map fst (rev h) ++ ops.
Proof.
  induction ops as [|o ops IH]; intros s h s' h' E; cbn [run_ops] in E; [injection E as <- <-; now rewrite app_nil_r|].
  destruct (step eqb none s o) as [s1 r]. rewrite (IH _ _ _ _ E). cbn [rev]. rewrite map_app, <- app_assoc. reflexivity.
Qed.
Lemma history_lemma V (eqb : V -> V -> bool) (none : V) ops s h : (forall a b, eqb a b = true <-> a = b) ->
  run_ops eqb none rps_empty [] ops = (s, h) ->
  map fst (rev h) = ops /\ valid_history none h /\ NoDup (rp_iter s) /\
  (forall x, In x (rp_iter s) <-> mem_after h x) /\
  (forall x, rp_contains eqb s x = true <-> mem_after h x) /\ rp_len s = length (rp_iter s).
Proof.
  intros He E. pose proof (run_ops_fst E) as F. cbn in F.
  assert (M : matches eqb none s h).
  { eapply run_matches; [exact He| |exact E]. split; [apply good_empty|]. split; [intros x; reflexivity|exact I]. }
  destruct M as (G & M & W). split; [assumption|]. split; [assumption|]. split; [apply G|]. split; [assumption|].
  split; [|now apply (@good_len V eqb He)]. intros x. rewrite <- M. now apply good_contains.
Qed.
Lemma any_lemma V (eqb : V -> V -> bool) (none : V) ops s h v : (forall a b, eqb a b = true <-> a = b) ->
  run_ops eqb none rps_empty [] ops = (s, h) -> mem_after h v ->
  exists r, snd (step eqb none s (OPop r)) = Ok v.
Proof.
  intros He E Hv. assert (M : matches eqb none s h).
  { eapply run_matches; [exact He| |exact E]. split; [apply good_empty|]. split; [intros x; reflexivity|exact I]. }
  destruct M as (G & M & W). apply M in Hv. destruct (@pop_any V eqb He none s v G Hv) as (r & s' & P).
  exists r. cbn [step]. rewrite P. reflexivity.
Qed.
Lemma equality_lemma V (eqb : V -> V -> bool) (none : V) ops s h ops' s' h' : (forall a b, eqb a b = true <-> a = b) ->
  run_ops eqb none rps_empty [] ops = (s, h) -> run_ops eqb none rps_empty [] ops' = (s', h') ->
  rp_eq eqb s s' = true <-> forall x, mem_after h x <-> mem_after h' x.
Proof.
  intros He E E'.
  assert (A : forall ops s h, run_ops eqb none rps_empty [] ops = (s, h) -> matches eqb none s h).
  { intros o t k F. eapply run_matches; [exact He| |exact F]. split; [apply good_empty|]. split; [intros x; reflexivity|exact I]. }
  destruct (A _ _ _ E) as (G & M & _), (A _ _ _ E') as (G' & M' & _).
  rewrite (@rp_eq_spec V eqb He s s' G G'). split; intros H x; [rewrite <- M, <- M'; apply H|rewrite M, M'; apply H].
Qed.

Lemma walk_lemma V (eqb : V -> V -> bool) (none : V) nbrs is_goal fuel rnd start path : (forall a b, eqb a b = true <-> a = b) ->
  (forall k, is_ok (nbrs k none) = false) -> (forall l, nbrs 0 start = Ok l -> ~ In start l) ->
  random_walk_arrange eqb none fuel nbrs is_goal rnd start = Some (Ok path) ->
  arrangement (fun p q => exists k l, nbrs k p = Ok l /\ In q l) start (length path) path /\
  is_goal (length path) = true /\ (forall n, 1 <= n < length path -> is_goal n = false).
Proof.
  intros He Hn Hs E. destruct (@walk_correct V eqb He none nbrs fuel is_goal rnd start path Hn Hs E) as ((A & B & C) & D & F & _).
  split; [|auto]. unfold arrangement. auto.
Qed.

(** 2-D grids *)
Lemma get_array2_sea w l sp : 0 < w -> 0 < l -> exists g, sea2 w l sp = Ok g /\ get_array2 g = Ok (repeat (repeat (sp_Z sp) l) w).
Proof.
  intros Hw Hl. unfold sea2, SitesGrid2d_new. destruct w as [|w]; [lia|]. cbn [repeat get_nth].
  unfold get_nth. cbn [nth_error bind]. eexists. split; [reflexivity|]. unfold get_array2. cbn [g2_sites g2_length].
  rewrite repeat_length.
  assert (F : forallb (fun r => length r =? l) (repeat sp l :: repeat (repeat sp l) w) = true).
  { apply forallb_forall. intros r I. change (repeat sp l :: repeat (repeat sp l) w) with (repeat (repeat sp l) (S w)) in I.
    apply repeat_spec in I. subst. rewrite repeat_length. apply Nat.eqb_refl. }
  rewrite F. cbn [negb concat]. rewrite app_length, repeat_length.
  destruct (l + length (concat (repeat (repeat sp l) w)) =? 0) eqn:Z; [apply Nat.eqb_eq in Z; lia|].
  assert (R : forall A B (f : A -> B) x k, map f (repeat x k) = repeat (f x) k).
  { intros A B f x. induction k; cbn; [reflexivity|]. now rewrite IHk. }
  cbn [map]. rewrite !R. reflexivity.
Qed.
Lemma from_array2_fails arr : arr <> [] -> (forall r, In r arr -> r <> []) -> from_array2 arr = Raise AttributeError.
Proof.
  intros Ne H. unfold from_array2. destruct arr as [|r arr]; [congruence|]. cbn [concat]. rewrite app_length.
  destruct r; [exfalso; apply (H []); [now left|reflexivity]|]. reflexivity.
Qed.

Lemma grid2_eqb_maps g h : grid2_eqb g h = true <-> map (map sp_Z) (g2_sites g) = map (map sp_Z) (g2_sites h).
Proof. unfold grid2_eqb. apply list_eqb_map2. intros x y. apply list_eqb_map. reflexivity. Qed.
Lemma grid2_eqb_spec g h : grid2_eqb g h = true <->
  length (g2_sites g) = length (g2_sites h) /\
  forall i r s, nth_error (g2_sites g) i = Some r -> nth_error (g2_sites h) i = Some s -> map sp_Z r = map sp_Z s.
Proof.
  rewrite grid2_eqb_maps. generalize (g2_sites g) (g2_sites h). intros a.
  induction a as [|x a IH]; intros [|y b]; cbn [map length].
  - split; [|reflexivity]. intros _. split; [reflexivity|]. intros [|i]; discriminate.
  - split; [discriminate|]. intros [? _]. discriminate.
  - split; [discriminate|]. intros [? _]. discriminate.
  - split.
    + intros [= E F]. apply IH in F. destruct F as [L H]. split; [congruence|].
      intros [|i] r s; cbn; [intros [= <-] [= <-]; assumption|apply H].
    + intros [[= L] H]. f_equal; [apply (H 0); reflexivity|]. apply IH. split; [assumption|].
      intros i. apply (H (S i)).
Qed.
Lemma grid2_eqb_arrays g h a b : get_array2 g = Ok a -> get_array2 h = Ok b -> (grid2_eqb g h = true <-> a = b).
Proof.
  rewrite grid2_eqb_maps. unfold get_array2.
  destruct (negb _); [discriminate|]. destruct (_ =? 0); [discriminate|]. intros [= <-].
  destruct (negb _); [discriminate|]. destruct (_ =? 0); [discriminate|]. intros [= <-]. reflexivity.
Qed.
