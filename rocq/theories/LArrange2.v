(** Lemmas for the random walk. *)
From Verif Require Import Base LBase MArrange SArrange LArrange.
Set Implicit Arguments.
Unset Strict Implicit.
Open Scope nat_scope.

Section S.
Variable V : Type.
Variable eqb : V -> V -> bool.
Hypothesis eqb_eq : forall a b, eqb a b = true <-> a = b.
Variable none : V.
Variable nbrs : nat -> V -> res (list V).

(** [q] was seen as a neighbour of [p] at some call *)
Definition seen (p q : V) : Prop := exists k l, nbrs k p = Ok l /\ In q l.

Lemma in_path_spec path x : in_path eqb path x = true <-> In x path.
Proof.
  unfold in_path. rewrite existsb_exists. split.
  - intros (y & I & E). apply eqb_eq in E. now subst.
  - intros I. exists x. split; [assumption|]. now apply eqb_eq.
Qed.

Lemma push_new_good path ps : forall f, good eqb f -> good eqb (push_new eqb path f ps) /\
  forall y, In y (r_list (push_new eqb path f ps)) <-> In y (r_list f) \/ (In y ps /\ ~ In y path).
Proof.
  unfold push_new. induction ps as [|p ps IH]; intros f G; cbn [fold_left]; [split; [assumption|]; cbn; tauto|].
  destruct (in_path eqb path p) eqn:E.
  - apply in_path_spec in E. destruct (IH f G) as [G' M]. split; [assumption|]. intros y. rewrite M. cbn.
    intuition (subst; auto). contradiction.
  - assert (NI : ~ In p path) by (rewrite <- in_path_spec, E; discriminate).
    unfold rp_push at 2 4. destruct (@add_good V eqb eqb_eq f p G) as [G1 M1].
    destruct (IH _ G1) as [G' M]. split; [assumption|]. intros y. rewrite M, M1. cbn.
    intuition (subst; auto).
Qed.

Lemma push_good ps f : good eqb f -> good eqb (fold_left (rp_push eqb) ps f) /\
  forall y, In y (r_list (fold_left (rp_push eqb) ps f)) <-> In y ps \/ In y (r_list f).
Proof. exact (@ior_good V eqb eqb_eq ps f). Qed.

Definition grown (start : V) (path : list V) : Prop :=
  nth_error path 0 = Some start /\ NoDup path /\
  forall i p, 0 < i -> nth_error path i = Some p -> exists j q, j < i /\ nth_error path j = Some q /\ seen q p.

Definition winv (start : V) (path : list V) (f : rps V) : Prop :=
  grown start path /\ good eqb f /\
  (forall y, In y (r_list f) -> ~ In y path /\ exists q, In q path /\ seen q y) /\
  (forall y, In y path -> exists k l, nbrs k y = Ok l).

Lemma winv_step start path f r s1 cur k ps : 
  (forall k, is_ok (nbrs k none) = false) ->
  winv start path f -> random_pop eqb none f r = Ok (s1, cur) -> nbrs k cur = Ok ps ->
  winv start (path ++ [cur]) (push_new eqb (path ++ [cur]) s1 ps).
Proof.
  intros Hn ((St & ND & Co) & G & F & O) P B.
  destruct (@pop_good V eqb eqb_eq none f r G) as (s' & v & P' & G' & C). rewrite P in P'. injection P' as <- <-.
  destruct C as [(_ & -> & _)|(I & M)]. { specialize (Hn k). rewrite B in Hn. discriminate. }
  destruct (F _ I) as (NI & q & Iq & Sq).
  assert (Lp : 0 < length path). { destruct path; [discriminate|cbn; lia]. }
  destruct (push_new_good (path ++ [cur]) ps G') as [G2 M2].
  split; [|split; [assumption|split]].
  - split; [|split].
    + now rewrite nth_error_app1.
    + now apply NoDup_snoc.
    + intros i p Hi E. destruct (Nat.lt_ge_cases i (length path)) as [L|L].
      * rewrite nth_error_app1 in E by assumption. destruct (Co i p Hi E) as (j & u & A & A2 & A3).
        exists j, u. split; [assumption|]. split; [|assumption]. rewrite nth_error_app1; [assumption|lia].
      * rewrite nth_error_app2 in E by assumption. destruct (i - length path) as [|[|n]] eqn:D; cbn in E; try discriminate.
        injection E as <-. apply In_nth_error in Iq as [j J]. exists j, q.
        assert (j < length path) by (apply nth_error_Some; congruence).
        split; [lia|]. split; [now rewrite nth_error_app1|assumption].
  - intros y Y. apply M2 in Y as [Y|[Y NY]].
    + apply M in Y as [Y D]. destruct (F _ Y) as (N1 & u & U & SU). split.
      * rewrite in_app_iff. cbn. intuition.
      * exists u. split; [apply in_app_iff; now left|assumption].
    + split; [assumption|]. exists cur. split; [apply in_app_iff; right; now left|]. now exists k, ps.
  - intros y Y. apply in_app_iff in Y as [Y|[<-|[]]]; eauto.
Qed.

Lemma walk_sound fuel is_goal rnd start : forall path f out,
  (forall k, is_ok (nbrs k none) = false) ->
  winv start path f -> walk_loop eqb none fuel nbrs is_goal rnd path f = Some (Ok out) ->
  grown start out /\ is_goal (length out) = true /\ (forall y, In y out -> exists k l, nbrs k y = Ok l) /\
  (forall n, length path <= n < length out -> is_goal n = false).
Proof.
  induction fuel as [|fuel IH]; intros path f out Hn W E; cbn [walk_loop] in E; [discriminate|].
  destruct (is_goal (length path)) eqn:Gl.
  - injection E as <-. destruct W as (A & _ & _ & O). split; [assumption|]. split; [assumption|]. split; [assumption|]. lia.
  - destruct (random_pop eqb none f (rnd (length path))) as [[s1 cur]|] eqn:P; [|discriminate].
    destruct (nbrs (length path) cur) as [ps|] eqn:B; [|discriminate].
    destruct (IH _ _ _ Hn (winv_step Hn W P B) E) as (A1 & A2 & A3 & A4).
    split; [assumption|]. split; [assumption|]. split; [assumption|].
    intros n L. rewrite app_length in A4. cbn in A4.
    destruct (Nat.eq_dec n (length path)) as [->|D]; [assumption|]. apply A4. lia.
Qed.

Lemma start_winv start l : nbrs 0 start = Ok l -> ~ In start l ->
  winv start [start] (fold_left (rp_push eqb) l rps_empty).
Proof.
  intros B NI. destruct (push_good l (@good_empty V eqb)) as [G M].
  split; [|split; [assumption|split]].
  - split; [reflexivity|]. split; [repeat constructor; auto|].
    intros [|[|i]] p Hi E; cbn in E; try lia; discriminate.
  - intros y Y. apply M in Y as [Y|[]]. split; [cbn; intros [->|[]]; contradiction|].
    exists start. split; [now left|]. now exists 0, l.
  - intros y [<-|[]]. eauto.
Qed.

Lemma walk_correct fuel is_goal rnd start path :
  (forall k, is_ok (nbrs k none) = false) ->
  (forall l, nbrs 0 start = Ok l -> ~ In start l) ->
  random_walk_arrange eqb none fuel nbrs is_goal rnd start = Some (Ok path) ->
  grown start path /\ is_goal (length path) = true /\ (forall n, 1 <= n < length path -> is_goal n = false) /\
  (forall y, In y path -> exists k l, nbrs k y = Ok l).
Proof.
  intros Hn Hs E. unfold random_walk_arrange in E. destruct (nbrs 0 start) as [l|] eqn:B; [|discriminate].
  destruct (walk_sound Hn (start_winv B (Hs l eq_refl)) E) as (A1 & A2 & A3 & A4). auto.
Qed.

(** ** Success on connected graphs.  [P] are the vertices, all finite; [N] the edges. *)
Variable vs : list V.
Variable N : V -> V -> Prop.
Hypothesis nbrs_ok : forall k x, In x vs -> exists l, nbrs k x = Ok l /\ (forall y, In y l <-> N x y).
Hypothesis N_in : forall x y, In x vs -> N x y -> In y vs.
Hypothesis N_irrefl : forall x, In x vs -> ~ N x x.
(** no proper non-empty part is closed *)
Hypothesis connected : forall S : V -> Prop, (forall x, S x \/ ~ S x) -> (exists x, In x vs /\ S x) ->
  (forall x y, In x vs -> S x -> N x y -> S y) -> forall x, In x vs -> S x.
Hypothesis vs_nodup : NoDup vs.

Definition winv2 (path : list V) (f : rps V) : Prop :=
  NoDup path /\ path <> [] /\ incl path vs /\ good eqb f /\
  (forall y, In y (r_list f) -> ~ In y path /\ In y vs) /\
  (forall x y, In x path -> N x y -> In y path \/ In y (r_list f)).

Lemma frontier_nonempty path f : winv2 path f -> length path < length vs -> r_list f <> [].
Proof.
  intros (ND & NE & I & G & F & C) L E.
  assert (A : forall x, In x vs -> In x path).
  { apply connected.
    - intros x. destruct (in_path eqb path x) eqn:Q; [left; now apply in_path_spec|right].
      rewrite <- in_path_spec, Q. discriminate.
    - destruct path as [|p path]; [congruence|]. exists p. split; [apply I; now left|now left].
    - intros x y _ X Nxy. destruct (C x y X Nxy) as [Y|Y]; [assumption|]. rewrite E in Y. destruct Y. }
  pose proof (NoDup_incl_length vs_nodup A). lia.
Qed.

Lemma walk_succeeds g is_goal rnd : (forall n, is_goal n = true <-> n = g) -> forall fuel path f, winv2 path f -> g <= length vs -> length path <= g -> g < fuel + length path ->
  exists out, walk_loop eqb none fuel nbrs is_goal rnd path f = Some (Ok out) /\ length out = g /\ NoDup out /\ incl out vs.
Proof.
  intros Hg. induction fuel as [|fuel IH]; intros path f W Gv L Fu; [lia|]. cbn [walk_loop].
  destruct (is_goal (length path)) eqn:E0; [apply Hg in E0; rename E0 into E|assert (E : length path <> g) by (rewrite <- Hg, E0; discriminate)].
  - exists path. destruct W as (A & _ & B & _). auto.
  - pose proof (frontier_nonempty W ltac:(lia)) as NE.
    destruct W as (ND & NP & I & G & F & C).
    destruct (@pop_good V eqb eqb_eq none f (rnd (length path)) G) as (s1 & cur & P & G' & Cs). rewrite P.
    destruct Cs as [(Q & _)|(Ic & M)]; [congruence|]. destruct (F _ Ic) as [NIc Vc].
    destruct (nbrs_ok (length path) Vc) as (ps & B & Bp). rewrite B.
    destruct (push_new_good (path ++ [cur]) ps G') as [G2 M2].
    apply IH; [|assumption|rewrite app_length; cbn; lia|rewrite app_length; cbn; lia].
    split; [now apply NoDup_snoc|]. split; [destruct path; discriminate|].
    split. { intros y Y. apply in_app_iff in Y as [Y|[<-|[]]]; auto. }
    split; [assumption|]. split.
    + intros y Y. apply M2 in Y as [Y|[Y NY]].
      * apply M in Y as [Y D]. destruct (F _ Y). split; [rewrite in_app_iff; cbn; intuition|assumption].
      * split; [assumption|]. apply (N_in Vc). now apply Bp.
    + intros x y X Nxy. destruct (in_path eqb (path ++ [cur]) y) eqn:Q; [left; now apply in_path_spec|].
      assert (NY : ~ In y (path ++ [cur])) by (rewrite <- in_path_spec, Q; discriminate).
      right. apply M2. apply in_app_iff in X as [X|[<-|[]]].
      * destruct (C x y X Nxy) as [Y|Y]; [exfalso; apply NY, in_app_iff; now left|].
        left. apply M. split; [assumption|]. intros ->. apply NY, in_app_iff. right. now left.
      * right. split; [now apply Bp|assumption].
Qed.

Lemma arrange_succeeds g is_goal rnd start fuel : (forall n, is_goal n = true <-> n = g) -> In start vs -> 1 <= g <= length vs -> g <= fuel ->
  exists out, random_walk_arrange eqb none fuel nbrs is_goal rnd start = Some (Ok out) /\
  length out = g /\ NoDup out /\ incl out vs.
Proof.
  intros Hg I L F. unfold random_walk_arrange. destruct (nbrs_ok 0 I) as (l & B & Bl). rewrite B.
  destruct (push_good l (@good_empty V eqb)) as [G M].
  apply (walk_succeeds (g := g)); [assumption| |lia|cbn; lia|cbn; lia].
  split; [repeat constructor; auto|]. split; [discriminate|]. split; [intros y [<-|[]]; assumption|].
  split; [assumption|]. split.
  - intros y Y. apply M in Y as [Y|[]]. apply Bl in Y. split; [|now apply (N_in I)].
    intros [<-|[]]. now apply (N_irrefl I).
  - intros x y [<-|[]] Nxy. right. apply M. left. now apply Bl.
Qed.
End S.
