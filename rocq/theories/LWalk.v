(** The random walk can give every growable sequence, and nothing else. *)
From Verif Require Import Base LBase BaseQ LQ MElement MGrid MArrange SArrange SWalk LArrange LArrange2 LArrange3 LArrange4.
Set Implicit Arguments.
Unset Strict Implicit.
Open Scope nat_scope.

Section Walk.
Variable V : Type.
Variable eqb : V -> V -> bool.
Hypothesis eqb_eq : forall a b, eqb a b = true <-> a = b.
Variable none : V.
Variable nbrs : nat -> V -> res (list V).
Variable is_goal : nat -> bool.
Notation walk_loop := (walk_loop eqb none).

Lemma walk_ext fuel rnd rnd' : forall path f, (forall n, length path <= n -> rnd n = rnd' n) ->
  walk_loop fuel nbrs is_goal rnd path f = walk_loop fuel nbrs is_goal rnd' path f.
Proof.
  induction fuel as [|fuel IH]; intros path f H; cbn [MArrange.walk_loop]; [reflexivity|]. destruct (is_goal (length path)); [reflexivity|].
  rewrite (H (length path)) by lia. destruct (random_pop eqb none f (rnd' (length path))) as [[f1 c]|]; [|reflexivity].
  destruct (nbrs (length path) c); [|reflexivity]. apply IH. intros n Hn. apply H. rewrite app_length in Hn. cbn in Hn. lia.
Qed.

Definition asked (path : list V) (y : V) : Prop := exists j q l, nth_error path j = Some q /\ nbrs j q = Ok l /\ In y l.
Definition front (path : list V) (f : rps V) : Prop := good eqb f /\ forall y, In y (r_list f) <-> asked path y /\ ~ In y path.

Lemma asked_snoc path c l y : nbrs (length path) c = Ok l -> asked (path ++ [c]) y <-> asked path y \/ In y l.
Proof.
  intros E. split.
  - intros (j & q & l' & Ej & El & I). destruct (Nat.lt_ge_cases j (length path)) as [H|H].
    + left. rewrite nth_error_app1 in Ej by exact H. now exists j, q, l'.
    + rewrite nth_error_app2 in Ej by exact H. destruct (j - length path) as [|k] eqn:Ek; [|destruct k; discriminate]. injection Ej as <-.
      replace j with (length path) in El by lia. rewrite E in El. injection El as <-. now right.
  - intros [(j & q & l' & Ej & El & I)|I].
    + exists j, q, l'. rewrite nth_error_app1; [auto|]. apply nth_error_Some. congruence.
    + exists (length path), c, l. rewrite nth_error_app2, Nat.sub_diag by lia. auto.
Qed.

Lemma front_step path f r s' c l : front path f -> random_pop eqb none f r = Ok (s', c) -> In c (r_list f) ->
  nbrs (length path) c = Ok l -> front (path ++ [c]) (push_new eqb (path ++ [c]) s' l).
Proof.
  intros [G M] E Ic El. destruct (pop_good eqb_eq none r G) as (s2 & v & E2 & G' & K). rewrite E in E2. injection E2 as <- <-.
  destruct K as [(K & _)|(_ & K)]; [rewrite K in Ic; destruct Ic|].
  destruct (push_new_good eqb_eq (path ++ [c]) l G') as [G2 M2]. split; [exact G2|]. intros y. rewrite M2, K, M, (asked_snoc _ El), in_app_iff. cbn [In].
  split.
  - intros [((Ay & Ny) & Hy)|(I & Ny)]; [split; [now left|]|split; [now right|exact Ny]]. intros [?|[?|[]]]; [contradiction|congruence].
  - intros ([Ay|I] & Ny); [left|right; tauto]. split; [split; [exact Ay|tauto]|]. intros ->. apply Ny. right. now left.
Qed.

Lemma reach_loop todo : forall path f fuel, front path f ->
  NoDup (path ++ todo) ->
  (forall i p, length path <= i -> nth_error (path ++ todo) i = Some p -> exists l, nbrs i p = Ok l) ->
  (forall i p, length path <= i -> nth_error (path ++ todo) i = Some p ->
     exists j q l, j < i /\ nth_error (path ++ todo) j = Some q /\ nbrs j q = Ok l /\ In p l) ->
  is_goal (length (path ++ todo)) = true -> (forall n, length path <= n < length (path ++ todo) -> is_goal n = false) ->
  length todo < fuel -> exists rnd, walk_loop fuel nbrs is_goal rnd path f = Some (Ok (path ++ todo)).
Proof.
  induction todo as [|c todo IH]; intros path f fuel F ND OK GR GT GF Lf; (destruct fuel as [|fuel]; [lia|]); cbn [MArrange.walk_loop].
  - rewrite app_nil_r in *. exists (fun _ => 0). now rewrite GT.
  - rewrite (GF (length path)) by (rewrite app_length; cbn; lia).
    assert (Ec : nth_error (path ++ c :: todo) (length path) = Some c) by (rewrite nth_error_app2, Nat.sub_diag by lia; reflexivity).
    assert (Ic : In c (r_list f)).
    { apply (proj2 F). split.
      - destruct (GR _ _ (le_n _) Ec) as (j & q & l & Lj & Ej & El & I). rewrite nth_error_app1 in Ej by exact Lj. exists j, q, l. auto.
      - apply NoDup_remove_2 in ND. intros I. apply ND. apply in_or_app. now left. }
    destruct (pop_any eqb_eq none (proj1 F) Ic) as (r & s' & E). destruct (OK _ _ (le_n _) Ec) as [l El].
    pose proof (front_step F E Ic El) as F'.
    assert (EA : path ++ c :: todo = (path ++ [c]) ++ todo) by now rewrite <- app_assoc. rewrite EA in *.
    assert (LP : length (path ++ [c]) = S (length path)) by (rewrite app_length; cbn; lia).
    destruct (IH (path ++ [c]) (push_new eqb (path ++ [c]) s' l) fuel F' ND) as [rnd R].
    + intros i p Hi. apply OK. lia.
    + intros i p Hi. apply GR. lia.
    + exact GT.
    + intros n Hn. apply GF. lia.
    + cbn in Lf. lia.
    + exists (fun n => if n =? length path then r else rnd n). rewrite Nat.eqb_refl, E, El. rewrite <- R. apply walk_ext.
      intros n Hn. destruct (Nat.eqb_spec n (length path)); [lia|reflexivity].
Qed.

Lemma start_front start l : nbrs 0 start = Ok l -> ~ In start l -> front [start] (fold_left (rp_push eqb) l rps_empty).
Proof.
  intros E N. destruct (ior_good eqb_eq l (good_empty eqb)) as [G M]. split; [exact G|]. intros y. etransitivity; [exact (M y)|]. cbn [rps_empty r_list In].
  split.
  - intros [I|[]]. split; [exists 0, start, l; auto|]. intros [<-|[]]. contradiction.
  - intros [(j & q & l' & Ej & El & I) _]. destruct j as [|[|j]]; try discriminate. injection Ej as <-. rewrite E in El. injection El as <-. now left.
Qed.

Lemma reach_lemma start path fuel : (forall l, nbrs 0 start = Ok l -> ~ In start l) -> growable nbrs start path ->
  is_goal (length path) = true -> (forall n, 1 <= n < length path -> is_goal n = false) -> length path <= fuel ->
  exists rnd, random_walk_arrange eqb none fuel nbrs is_goal rnd start = Some (Ok path).
Proof.
  intros NS (S0 & ND & OK & GR) GT GF Lf. destruct path as [|s todo]; [discriminate|]. injection S0 as ->.
  destruct (OK 0 start eq_refl) as [l El]. unfold random_walk_arrange. rewrite El.
  destruct (@reach_loop todo [start] (fold_left (rp_push eqb) l rps_empty) fuel (start_front El (NS _ El)) ND) as [rnd R].
  - intros i p _. apply OK.
  - intros i p Hi. apply GR. cbn in Hi. lia.
  - exact GT.
  - exact GF.
  - cbn in Lf. lia.
  - exists rnd. exact R.
Qed.

Lemma only_loop fuel rnd start : (forall k, is_ok (nbrs k none) = false) -> forall path f out, front path f -> growable nbrs start path ->
  walk_loop fuel nbrs is_goal rnd path f = Some (Ok out) -> growable nbrs start out.
Proof.
  intros NN. induction fuel as [|fuel IH]; intros path f out F GR; cbn [MArrange.walk_loop]; [discriminate|].
  destruct (is_goal (length path)); [intros E; now injection E as <-|].
  destruct (pop_good eqb_eq none (rnd (length path)) (proj1 F)) as (s' & c & E & _ & K). rewrite E.
  destruct (nbrs (length path) c) as [l|] eqn:El; [|discriminate].
  assert (Ic : In c (r_list f)).
  { destruct K as [(_ & -> & _)|(I & _)]; [|exact I]. specialize (NN (length path)). rewrite El in NN. discriminate. }
  apply IH; [exact (front_step F E Ic El)|]. apply (proj2 F) in Ic. destruct Ic as ((j & q & l' & Ej & El' & I) & Nc). destruct GR as (S0 & ND & OK & GR).
  assert (Lj : j < length path) by (apply nth_error_Some; congruence).
  split; [rewrite nth_error_app1; [exact S0|]; lia|]. split; [now apply NoDup_snoc|]. split.
  - intros i p Ei. destruct (Nat.lt_ge_cases i (length path)) as [H|H]; [rewrite nth_error_app1 in Ei by exact H; eauto|].
    rewrite nth_error_app2 in Ei by exact H. destruct (i - length path) as [|k] eqn:Ek; [|destruct k; discriminate]. injection Ei as <-.
    replace i with (length path) by lia. eauto.
  - intros i p Hi Ei. destruct (Nat.lt_ge_cases i (length path)) as [H|H].
    + rewrite nth_error_app1 in Ei by exact H. destruct (GR i p Hi Ei) as (j' & q' & l2 & Lj' & Ej' & R). exists j', q', l2. rewrite nth_error_app1 by lia. auto.
    + rewrite nth_error_app2 in Ei by exact H. destruct (i - length path) as [|k] eqn:Ek; [|destruct k; discriminate]. injection Ei as <-.
      exists j, q, l'. split; [lia|]. rewrite nth_error_app1 by exact Lj. auto.
Qed.

Lemma only_lemma fuel rnd start path : (forall k, is_ok (nbrs k none) = false) -> (forall l, nbrs 0 start = Ok l -> ~ In start l) ->
  random_walk_arrange eqb none fuel nbrs is_goal rnd start = Some (Ok path) -> growable nbrs start path.
Proof.
  intros NN NS. unfold random_walk_arrange. destruct (nbrs 0 start) as [l|] eqn:El; [|discriminate]. apply (only_loop NN); [exact (start_front El (NS _ eq_refl))|].
  split; [reflexivity|]. split; [repeat constructor; easy|]. split.
  - intros [|[|i]] p; try discriminate. intros E. injection E as <-. eauto.
  - intros [|[|i]] p Hi; try discriminate. lia.
Qed.
End Walk.

(** ** connected sets *)
Section Sets.
Variable V : Type.
Variable dec : forall a b : V, {a = b} + {a <> b}.
Variable N : V -> V -> Prop.

Lemma crossing start S T x : linked N S start x -> In start T -> ~ In x T -> exists t s, In t T /\ In s S /\ ~ In s T /\ N t s.
Proof.
  intros L It. induction L as [I|x y L IH Nxy Iy]; intros Nx; [contradiction|].
  destruct (in_dec dec x T) as [Ix|Ix]; [|auto]. exists x, y. auto.
Qed.

Lemma grow_set start S : connected N start S -> forall k, 1 <= k <= length S -> exists path, arrangement N start k path /\ incl path S.
Proof.
  intros (I0 & ND & LK). induction k as [|k IH]; intros Hk; [lia|]. destruct k as [|k].
  - exists [start]. split; [|intros x [<-|[]]; exact I0]. split; [reflexivity|]. split; [reflexivity|]. split; [repeat constructor; easy|].
    intros [|[|i]] p Hi; try discriminate. lia.
  - destruct IH as (path & (A0 & A1 & A2 & A3) & IP); [lia|].
    assert (EX : exists x, In x S /\ ~ In x path).
    { destruct (existsb (fun x => if in_dec dec x path then false else true) S) eqn:E.
      - apply existsb_exists in E. destruct E as (x & Ix & Hx). exists x. split; [exact Ix|]. now destruct (in_dec dec x path).
      - exfalso. assert (SUB : incl S path).
        { intros x Ix. destruct (in_dec dec x path) as [i|n]; [exact i|]. exfalso. enough (C : existsb (fun x => if in_dec dec x path then false else true) S = true) by congruence.
          apply existsb_exists. exists x. split; [exact Ix|]. now destruct (in_dec dec x path). }
        pose proof (NoDup_incl_length ND SUB). lia. }
    destruct EX as (x & Ix & Nx). assert (Is : In start path) by (eapply nth_error_In; exact A0).
    destruct (crossing (LK x Ix) Is Nx) as (t & s & It & Is' & Ns & Nts). exists (path ++ [s]). split.
    + split; [rewrite nth_error_app1; [exact A0|]; lia|]. split; [rewrite app_length; cbn; lia|]. split; [now apply NoDup_snoc|].
      intros i p Hi Ei. destruct (Nat.lt_ge_cases i (length path)) as [H|H].
      * rewrite nth_error_app1 in Ei by exact H. destruct (A3 i p Hi Ei) as (j & q & Lj & Ej & Nq). exists j, q. rewrite nth_error_app1 by lia. auto.
      * rewrite nth_error_app2 in Ei by exact H. destruct (i - length path) as [|m] eqn:Em; [|destruct m; discriminate]. injection Ei as <-.
        apply In_nth_error in It. destruct It as [j Ej]. assert (j < length path) by (apply nth_error_Some; congruence).
        exists j, t. rewrite nth_error_app1 by lia. split; [lia|]. auto.
    + intros y Iy. apply in_app_or in Iy. destruct Iy as [Iy|[<-|[]]]; auto.
Qed.
Lemma grow_perm start S : connected N start S -> exists path, arrangement N start (length S) path /\ Permutation S path.
Proof.
  intros C. destruct (@grow_set start S C (length S)) as (path & A & IP).
  { destruct C as (I & _). destruct S; [destruct I|cbn; lia]. }
  exists path. split; [exact A|]. destruct A as (_ & A1 & A2 & _). apply Permutation_sym. apply NoDup_Permutation_bis; auto. lia.
Qed.
(** and conversely the positions of an arrangement are a connected set *)
Lemma arrangement_connected start k path : arrangement N start k path -> connected N start path.
Proof.
  intros (A0 & A1 & A2 & A3). split; [eapply nth_error_In; exact A0|]. split; [exact A2|]. intros x Ix. apply In_nth_error in Ix. destruct Ix as [i Ei].
  revert x Ei. induction i as [i IH] using lt_wf_ind. intros x Ei. destruct i as [|i].
  - rewrite A0 in Ei. injection Ei as <-. constructor. eapply nth_error_In; exact A0.
  - destruct (A3 (S i) x ltac:(lia) Ei) as (j & q & Lj & Ej & Nq). apply linked_next with q; [exact (IH j Lj q Ej)|exact Nq|eapply nth_error_In; exact Ei].
Qed.
End Sets.

(** ** the two problems *)
Section Graph.
Variable P : list Z -> Prop.
Variable N : list Z -> list Z -> Prop.
Variable query : pyval -> res (list pyval).
Variable order : nat -> list pyval -> list pyval.
Hypothesis N_P : forall p q, N p q -> P q /\ q <> p.
Hypothesis two : forall p, P p -> exists q1 q2, N p q1 /\ N p q2 /\ q1 <> q2.
Hypothesis query_ans : forall p, P p -> answers P (N p) p (query (VTup p)).
Hypothesis order_perm : forall k l, Permutation l (order k l).

Lemma arrangement_in start k ps : P start -> arrangement N start k ps -> Forall P ps.
Proof.
  intros Hs (A0 & _ & _ & A3). apply Forall_forall. intros p I. apply In_nth_error in I. destruct I as [[|i] Ei]; [congruence|].
  destruct (A3 (S i) p ltac:(lia) Ei) as (_ & q & _ & _ & Nq). apply (N_P Nq).
Qed.
Lemma graph_reach goal is_goal start fuel ps : (forall n, is_goal n = true <-> n = goal) -> P start -> arrangement N start goal ps -> goal <= fuel ->
  exists rnd, random_walk_arrange pyval_eqb VNone fuel (ordered order query) is_goal rnd (VTup start) = Some (Ok (map VTup ps)).
Proof.
  intros HG Hs A Lf. pose proof (arrangement_in Hs A) as FP. rewrite Forall_forall in FP. destruct A as (A0 & A1 & A2 & A3).
  apply (reach_lemma pyval_eqb_eq).
  - intros l El I. destruct (graph_nbrs two query_ans order_perm 0 Hs) as (l' & El' & M). rewrite El in El'. injection El' as <-.
    apply M in I. destruct I as (p & q & [= <-] & [= <-] & Nq). apply N_P in Nq. tauto.
  - split; [rewrite nth_error_map, A0; reflexivity|]. split; [apply FinFun.Injective_map_NoDup; [intros a b [= ->]; reflexivity|exact A2]|]. split.
    + intros i p Ei. rewrite nth_error_map in Ei. destruct (nth_error ps i) as [x|] eqn:Ex; [|discriminate]. injection Ei as <-. apply nth_error_In in Ex.
      destruct (graph_nbrs two query_ans order_perm i (FP x Ex)) as (l & El & _). eauto.
    + intros i p Hi Ei. rewrite nth_error_map in Ei. destruct (nth_error ps i) as [x|] eqn:Ex; [|discriminate]. injection Ei as <-.
      destruct (A3 i x Hi Ex) as (j & q & Lj & Ej & Nq). destruct (graph_nbrs two query_ans order_perm j (FP q (nth_error_In _ _ Ej))) as (l & El & M).
      exists j, (VTup q), l. split; [exact Lj|]. split; [rewrite nth_error_map, Ej; reflexivity|]. split; [exact El|]. apply M. now exists q, x.
  - rewrite map_length. apply HG. exact A1.
  - rewrite map_length. intros n Hn. destruct (is_goal n) eqn:E; [|reflexivity]. apply HG in E. lia.
  - rewrite map_length. lia.
Qed.
End Graph.

Lemma half_in (g : Z) : (2 <= g)%Z -> (0 <= g / 2 < Z.of_nat (Z.to_nat g))%Z.
Proof. intros H. split; [apply Z.div_pos; lia|]. rewrite Z2Nat.id by lia. apply Z.div_lt; lia. Qed.

Lemma boron_reach order g fuel ps : (2 <= g)%Z -> (forall k l, Permutation l (order k l)) -> let n := Z.to_nat g in n <= fuel ->
  arrangement (neighbour2 boron_m arrange_delta n n) [g / 2; g / 2]%Z n ps ->
  exists rnd, boron_walk fuel order rnd g = Some (Ok (map VTup ps)).
Proof.
  intros Hg Ho n Lf A. unfold boron_walk. destruct (boron_problem_ok (g := g)) as (bg & -> & Em & Ew & El); [lia|].
  unfold get_midpoint2. rewrite Ew, El. fold n. assert (Mid : Z.of_nat (n / 2) = (g / 2)%Z) by (rewrite Nat2Z.inj_div; f_equal; unfold n; lia). rewrite Mid.
  apply (@graph_reach (in_grid2 n n) (neighbour2 boron_m arrange_delta n n)) with (goal := n); auto.
  - intros p q (Q1 & Q2 & _). auto.
  - intros p. apply plane_two; [unfold n; lia|apply Qcleb_le; vm_compute; reflexivity|apply Qcleb_le; vm_compute; reflexivity].
  - intros p (x & y & -> & _). unfold cstru2_get_neighbors. rewrite Em, Ew, El. apply neighbors2_answers.
  - intros k. apply goal_test_spec. lia.
  - exists (g / 2)%Z, (g / 2)%Z. pose proof (half_in Hg). auto.
Qed.
Lemma fcc_reach hp order g fuel ps : (2 <= g)%Z -> (forall k l, Permutation l (order k l)) -> let n := Z.to_nat g in n <= fuel ->
  arrangement (neighbour fcc_m arrange_delta n n n) [g / 2; g / 2; g / 2]%Z n ps ->
  exists rnd, fcc_walk fuel order rnd hp g = Some (Ok (map VTup ps)).
Proof.
  intros Hg Ho n Lf A. unfold fcc_walk. destruct (fcc_problem_ok hp (g := g)) as (bg & hp' & -> & Em & Ed & Ew & El); [lia|].
  unfold midpoint_val, get_midpoint. rewrite Ed, Ew, El. fold n. assert (Mid : Z.of_nat (n / 2) = (g / 2)%Z) by (rewrite Nat2Z.inj_div; f_equal; unfold n; lia). rewrite Mid.
  apply (@graph_reach (in_grid n n n) (neighbour fcc_m arrange_delta n n n)) with (goal := n); auto.
  - intros p q (Q1 & Q2 & _). auto.
  - intros p. apply space_two; [unfold n; lia|apply Qcleb_le; vm_compute; reflexivity..].
  - intros p (x & y & z & -> & _). unfold cstru_get_neighbors. rewrite Em, Ed, Ew, El. apply neighbors3_answers.
  - intros k. apply goal_test_spec. lia.
  - exists (g / 2)%Z, (g / 2)%Z, (g / 2)%Z. pose proof (half_in Hg). auto.
Qed.
