(** The arrangement problems of arrangeAgent.py always succeed. *)
From Verif Require Import Base LBase BaseQ LQ MElement MGrid MArrange SArrange LArrange LArrange2 LArrange3.
Set Implicit Arguments.
Unset Strict Implicit.
Open Scope nat_scope.

Lemma interval_walk (n : nat) (P : Z -> Prop) a : (0 <= a < Z.of_nat n)%Z -> P a ->
  (forall z, (0 <= z)%Z -> (z + 1 < Z.of_nat n)%Z -> P z <-> P (z + 1)%Z) ->
  forall z, (0 <= z < Z.of_nat n)%Z -> P z.
Proof.
  intros Ha Pa St.
  assert (Up : forall k, (a + Z.of_nat k < Z.of_nat n)%Z -> P (a + Z.of_nat k)%Z).
  { induction k; intros L; [now rewrite Z.add_0_r|].
    replace (a + Z.of_nat (S k))%Z with (a + Z.of_nat k + 1)%Z by lia. apply (proj1 (St (a + Z.of_nat k)%Z ltac:(lia) ltac:(lia))). apply IHk. lia. }
  assert (Down : forall k, (0 <= a - Z.of_nat k)%Z -> P (a - Z.of_nat k)%Z).
  { induction k; intros L; [now rewrite Z.sub_0_r|].
    apply (proj2 (St (a - Z.of_nat (S k))%Z ltac:(lia) ltac:(lia))). replace (a - Z.of_nat (S k) + 1)%Z with (a - Z.of_nat k)%Z by lia. apply IHk. lia. }
  intros z Hz. destruct (Z.le_ge_cases a z) as [L|L].
  - replace z with (a + Z.of_nat (Z.to_nat (z - a)))%Z by lia. apply Up. lia.
  - replace z with (a - Z.of_nat (Z.to_nat (a - z)))%Z by lia. apply Down. lia.
Qed.

(** ** the plane *)
Section Plane.
Variable m : vec2 * vec2.
Variable delta : Qc.
Variable n : nat.
Hypothesis n2 : 2 <= n.
Hypothesis step_x : (fst (fst m) * fst (fst m) + snd (fst m) * snd (fst m) <= delta * delta)%Qc.
Hypothesis step_y : (fst (snd m) * fst (snd m) + snd (snd m) * snd (snd m) <= delta * delta)%Qc.
Notation N2 := (neighbour2 m delta n n).

Lemma near2_x a b x : (x = a + 1 \/ x = a - 1)%Z -> near2 m delta [a; b] [x; b].
Proof.
  intros H. exists a, b, x, b. split; [reflexivity|]. split; [reflexivity|]. cbv zeta.
  rewrite Z.sub_diag. destruct H as [-> | ->].
  - replace (a + 1 - a)%Z with 1%Z by lia. rewrite Zc_0, Zc_1.
    match goal with |- (?u <= _)%Qc => replace u with (fst (fst m) * fst (fst m) + snd (fst m) * snd (fst m))%Qc by ring end. exact step_x.
  - replace (a - 1 - a)%Z with (- (1))%Z by lia. rewrite Zc_opp, Zc_0, Zc_1.
    match goal with |- (?u <= _)%Qc => replace u with (fst (fst m) * fst (fst m) + snd (fst m) * snd (fst m))%Qc by ring end. exact step_x.
Qed.
Lemma near2_y a b y : (y = b + 1 \/ y = b - 1)%Z -> near2 m delta [a; b] [a; y].
Proof.
  intros H. exists a, b, a, y. split; [reflexivity|]. split; [reflexivity|]. cbv zeta.
  rewrite Z.sub_diag. destruct H as [-> | ->].
  - replace (b + 1 - b)%Z with 1%Z by lia. rewrite Zc_0, Zc_1.
    match goal with |- (?u <= _)%Qc => replace u with (fst (snd m) * fst (snd m) + snd (snd m) * snd (snd m))%Qc by ring end. exact step_y.
  - replace (b - 1 - b)%Z with (- (1))%Z by lia. rewrite Zc_opp, Zc_0, Zc_1.
    match goal with |- (?u <= _)%Qc => replace u with (fst (snd m) * fst (snd m) + snd (snd m) * snd (snd m))%Qc by ring end. exact step_y.
Qed.

Lemma plane_two p : in_grid2 n n p -> exists q1 q2, N2 p q1 /\ N2 p q2 /\ q1 <> q2.
Proof.
  intros (x & y & -> & Hx & Hy).
  assert (Ex : exists x', (x' = x + 1 \/ x' = x - 1)%Z /\ (0 <= x' < Z.of_nat n)%Z).
  { destruct (Z.eq_dec x 0); [exists (x + 1)%Z|exists (x - 1)%Z]; lia. }
  assert (Ey : exists y', (y' = y + 1 \/ y' = y - 1)%Z /\ (0 <= y' < Z.of_nat n)%Z).
  { destruct (Z.eq_dec y 0); [exists (y + 1)%Z|exists (y - 1)%Z]; lia. }
  destruct Ex as (x' & Ex & Bx), Ey as (y' & Ey & By).
  exists [x'; y], [x; y']. split; [|split].
  - split; [|split; [|now apply near2_x]].
    + exists x', y. auto.
    + intros [= E]. lia.
  - split; [|split; [|now apply near2_y]].
    + exists x, y'. auto.
    + intros [= E]. lia.
  - intros [= E1 E2]. lia.
Qed.

Lemma plane_connected (S : list Z -> Prop) : (exists p, in_grid2 n n p /\ S p) ->
  (forall p q, in_grid2 n n p -> S p -> N2 p q -> S q) -> forall p, in_grid2 n n p -> S p.
Proof.
  intros (p0 & (x0 & y0 & -> & Hx0 & Hy0) & S0) Cl p (x & y & -> & Hx & Hy).
  assert (A : S [x; y0]).
  { apply (interval_walk (n := n) (P := fun x => S [x; y0]) Hx0 S0); [|assumption].
    intros z Z0 Z1. split; intros H.
    - refine (Cl [z; y0] _ _ H _); [exists z, y0; repeat split; lia|].
      split; [exists (z + 1)%Z, y0; repeat split; lia|]. split; [intros [= E]; lia|]. apply near2_x. lia.
    - refine (Cl [(z + 1)%Z; y0] _ _ H _); [exists (z + 1)%Z, y0; repeat split; lia|].
      split; [exists z, y0; repeat split; lia|]. split; [intros [= E]; lia|]. apply near2_x. lia. }
  apply (interval_walk (n := n) (P := fun y => S [x; y]) Hy0 A); [|assumption].
  intros z Z0 Z1. split; intros H.
  - refine (Cl [x; z] _ _ H _); [exists x, z; repeat split; lia|].
    split; [exists x, (z + 1)%Z; repeat split; lia|]. split; [intros [= E]; lia|]. apply near2_y. lia.
  - refine (Cl [x; (z + 1)%Z] _ _ H _); [exists x, (z + 1)%Z; repeat split; lia|].
    split; [exists x, z; repeat split; lia|]. split; [intros [= E]; lia|]. apply near2_y. lia.
Qed.
End Plane.

(** ** space *)
Section Space.
Variable m : mat Qc.
Variable delta : Qc.
Variable n : nat.
Hypothesis n2 : 2 <= n.
Hypothesis step_x : (vdot (vx m) (vx m) <= delta * delta)%Qc.
Hypothesis step_y : (vdot (vy m) (vy m) <= delta * delta)%Qc.
Hypothesis step_z : (vdot (vz m) (vz m) <= delta * delta)%Qc.
Notation N3 := (neighbour m delta n n n).

Lemma unit_step (s a b c : Z) : 
  (s = 1 \/ s = -1)%Z -> (a = s /\ b = 0 /\ c = 0 \/ a = 0 /\ b = s /\ c = 0 \/ a = 0 /\ b = 0 /\ c = s)%Z ->
  (vdot (vec_mat (vecZ (V3 a b c)) m) (vec_mat (vecZ (V3 a b c)) m) <= delta * delta)%Qc.
Proof.
  intros Hs H. assert (Sq : (Zc s * Zc s = 1)%Qc).
  { rewrite <- Zc_mult, <- Zc_1. f_equal. destruct Hs; subst; reflexivity. }
  destruct H as [(-> & -> & ->)|[(-> & -> & ->)|(-> & -> & ->)]];
  unfold vec_mat, vecZ, vmap, vadd, vscale, vdot in *; cbn [vx vy vz] in *; rewrite Zc_0.
  - match goal with |- (?u <= _)%Qc => replace u with ((Zc s * Zc s) * (vx (vx m) * vx (vx m) + vy (vx m) * vy (vx m) + vz (vx m) * vz (vx m)))%Qc by ring end.
    rewrite Sq, Qcmult_1_l. exact step_x.
  - match goal with |- (?u <= _)%Qc => replace u with ((Zc s * Zc s) * (vx (vy m) * vx (vy m) + vy (vy m) * vy (vy m) + vz (vy m) * vz (vy m)))%Qc by ring end.
    rewrite Sq, Qcmult_1_l. exact step_y.
  - match goal with |- (?u <= _)%Qc => replace u with ((Zc s * Zc s) * (vx (vz m) * vx (vz m) + vy (vz m) * vy (vz m) + vz (vz m) * vz (vz m)))%Qc by ring end.
    rewrite Sq, Qcmult_1_l. exact step_z.
Qed.

(** one step along an axis *)
Definition axis (a b c x y z : Z) : Prop :=
  (Z.abs (x - a) = 1 /\ y = b /\ z = c \/ x = a /\ Z.abs (y - b) = 1 /\ z = c \/ x = a /\ y = b /\ Z.abs (z - c) = 1)%Z.
Lemma axis_neighbour a b c x y z : axis a b c x y z -> in_grid n n n [x; y; z] -> N3 [a; b; c] [x; y; z].
Proof.
  intros A I. split; [assumption|]. split; [intros [= E1 E2 E3]; unfold axis in A; lia|].
  exists a, b, c, x, y, z. split; [reflexivity|]. split; [reflexivity|]. cbv zeta.
  apply (@unit_step (x - a + (y - b) + (z - c))%Z); unfold axis in A; lia.
Qed.
Lemma grid3 x y z : (0 <= x < Z.of_nat n)%Z -> (0 <= y < Z.of_nat n)%Z -> (0 <= z < Z.of_nat n)%Z -> in_grid n n n [x; y; z].
Proof. intros. exists x, y, z. auto. Qed.

Lemma space_two p : in_grid n n n p -> exists q1 q2, N3 p q1 /\ N3 p q2 /\ q1 <> q2.
Proof.
  intros (x & y & z & -> & Hx & Hy & Hz).
  assert (Ex : exists x', (Z.abs (x' - x) = 1)%Z /\ (0 <= x' < Z.of_nat n)%Z).
  { destruct (Z.eq_dec x 0); [exists (x + 1)%Z|exists (x - 1)%Z]; lia. }
  assert (Ey : exists y', (Z.abs (y' - y) = 1)%Z /\ (0 <= y' < Z.of_nat n)%Z).
  { destruct (Z.eq_dec y 0); [exists (y + 1)%Z|exists (y - 1)%Z]; lia. }
  destruct Ex as (x' & Ex & Bx), Ey as (y' & Ey & By).
  exists [x'; y; z], [x; y'; z]. split; [|split].
  - apply axis_neighbour; [left; auto|now apply grid3].
  - apply axis_neighbour; [right; left; auto|now apply grid3].
  - intros [= E1 E2]. lia.
Qed.

Lemma space_connected (S : list Z -> Prop) : (exists p, in_grid n n n p /\ S p) ->
  (forall p q, in_grid n n n p -> S p -> N3 p q -> S q) -> forall p, in_grid n n n p -> S p.
Proof.
  intros (p0 & (x0 & y0 & z0 & -> & Hx0 & Hy0 & Hz0) & S0) Cl p (x & y & z & -> & Hx & Hy & Hz).
  assert (A : S [x; y0; z0]).
  { apply (interval_walk (n := n) (P := fun x => S [x; y0; z0]) Hx0 S0); [|assumption].
    intros t T0 T1. split; intros H; (eapply Cl; [|exact H|]); try (apply grid3; lia);
    (apply axis_neighbour; [unfold axis; lia|apply grid3; lia]). }
  assert (B : S [x; y; z0]).
  { apply (interval_walk (n := n) (P := fun y => S [x; y; z0]) Hy0 A); [|assumption].
    intros t T0 T1. split; intros H; (eapply Cl; [|exact H|]); try (apply grid3; lia);
    (apply axis_neighbour; [unfold axis; lia|apply grid3; lia]). }
  apply (interval_walk (n := n) (P := fun z => S [x; y; z]) Hz0 B); [|assumption].
  intros t T0 T1. split; intros H; (eapply Cl; [|exact H|]); try (apply grid3; lia);
  (apply axis_neighbour; [unfold axis; lia|apply grid3; lia]).
Qed.
End Space.

(** ** common to both: a finite connected graph on tuples in which every vertex has at
    least two neighbours *)
Definition lift (N : list Z -> list Z -> Prop) (a b : pyval) : Prop :=
  exists p q, a = VTup p /\ b = VTup q /\ N p q.

Lemma map_VTup_inv out vs : incl out (map VTup vs) -> exists ps, out = map VTup ps /\ incl ps vs.
Proof.
  induction out as [|o out IH]; intros H; [exists []; split; [reflexivity|easy]|].
  destruct IH as (ps & -> & I). { intros x X. apply H. now right. }
  destruct (proj1 (in_map_iff _ _ _) (H o (or_introl eq_refl))) as (p & <- & Ip).
  exists (p :: ps). split; [reflexivity|]. intros q [<-|Q]; auto.
Qed.

Section Graph.
Variable P : list Z -> Prop.
Variable N : list Z -> list Z -> Prop.
Variable vs : list (list Z).
Variable query : pyval -> res (list pyval).
Variable order : nat -> list pyval -> list pyval.
Hypothesis vs_P : forall q, In q vs <-> P q.
Hypothesis vs_nd : NoDup vs.
Hypothesis N_P : forall p q, N p q -> P q /\ q <> p.
Hypothesis two : forall p, P p -> exists q1 q2, N p q1 /\ N p q2 /\ q1 <> q2.
Hypothesis conn : forall S : list Z -> Prop, (exists p, P p /\ S p) -> (forall p q, P p -> S p -> N p q -> S q) -> forall p, P p -> S p.
Hypothesis query_ans : forall p, P p -> answers P (N p) p (query (VTup p)).
Hypothesis query_none : is_ok (query VNone) = false.
Hypothesis order_perm : forall k l, Permutation l (order k l).

Lemma graph_nbrs k p : P p -> exists l, ordered order query k (VTup p) = Ok l /\ forall y, In y l <-> lift N (VTup p) y.
Proof.
  intros Hp. destruct (two Hp) as (q1 & q2 & N1 & N2 & D).
  destruct (query_ans Hp) as (_ & _ & _ & _ & A). destruct (A Hp q1 q2 N1 N2 D) as (ps & E & _ & M).
  unfold ordered. rewrite E. cbn [bind]. eexists. split; [reflexivity|]. intros y. split.
  - intros I. apply (Permutation_in _ (Permutation_sym (order_perm k _))) in I.
    apply in_map_iff in I as (q & <- & I). exists p, q. rewrite <- M. auto.
  - intros (p' & q & [= <-] & -> & Nq). apply (Permutation_in _ (order_perm k _)). apply in_map. now apply M.
Qed.

Lemma graph_walk goal is_goal rnd start fuel : (forall n, is_goal n = true <-> n = goal) ->
  P start -> 1 <= goal <= length vs -> goal <= fuel ->
  exists ps, random_walk_arrange pyval_eqb VNone fuel (ordered order query) is_goal rnd (VTup start) = Some (Ok (map VTup ps)) /\
  Forall P ps /\ arrangement N start goal ps.
Proof.
  intros Hg Hs Lg Lf.
  assert (Vin : forall x, In x (map VTup vs) -> exists p, x = VTup p /\ P p).
  { intros x X. apply in_map_iff in X as (p & <- & I). exists p. rewrite <- vs_P. auto. }
  destruct (@arrange_succeeds pyval pyval_eqb pyval_eqb_eq VNone (ordered order query) (map VTup vs) (lift N)
    (fun k x X => ltac:(destruct (Vin x X) as (p & -> & Hp); exact (graph_nbrs k Hp)))) with (g := goal) (is_goal := is_goal) (rnd := rnd) (start := VTup start) (fuel := fuel)
    as (out & E & Lo & ND & Io).
  - intros x y X (p & q & -> & -> & Nq). apply in_map. apply vs_P. now apply N_P in Nq.
  - intros x X (p & q & -> & [= <-] & Nq). apply N_P in Nq. tauto.
  - intros S _ (x & X & Sx) Cl y Y. destruct (Vin x X) as (p & -> & Hp), (Vin y Y) as (q & -> & Hq).
    apply (@conn (fun p => S (VTup p))); [eauto| |assumption].
    intros a b Ha Sa Nab. refine (Cl _ _ _ Sa _); [apply in_map; now apply vs_P|]. now exists a, b.
  - apply FinFun.Injective_map_NoDup; [intros a b [= ->]; reflexivity|assumption].
  - assumption.
  - apply in_map. now apply vs_P.
  - now rewrite map_length.
  - assumption.
  - destruct (map_VTup_inv Io) as (ps & -> & Ip). exists ps. split; [exact E|].
    split; [apply Forall_forall; intros p I; now apply vs_P, Ip|].
    destruct (@walk_correct pyval pyval_eqb pyval_eqb_eq VNone (ordered order query) fuel is_goal rnd (VTup start) (map VTup ps)) as ((A1 & A2 & A3) & _).
    + intros k. unfold ordered. destruct (query VNone); [discriminate|reflexivity].
    + intros l B I. destruct (graph_nbrs 0 Hs) as (l' & B' & M). rewrite B in B'. injection B' as <-.
      apply M in I as (p & q & [= <-] & [= <-] & Nq). apply N_P in Nq. tauto.
    + exact E.
    + split; [|split; [|split]].
      * rewrite nth_error_map in A1. destruct (nth_error ps 0); [injection A1 as ->; reflexivity|discriminate].
      * rewrite map_length in Lo. exact Lo.
      * eapply NoDup_map_inv. exact A2.
      * intros i p Hi Ei. destruct (A3 i (VTup p) Hi) as (j & q & Lj & Ej & (k & l & B & Iq)).
        { rewrite nth_error_map, Ei. reflexivity. }
        rewrite nth_error_map in Ej. destruct (nth_error ps j) as [q'|] eqn:Eq; [|discriminate].
        injection Ej as <-. assert (Pq : P q') by (apply vs_P, Ip; eapply nth_error_In; eauto).
        destruct (graph_nbrs k Pq) as (l' & B' & M). rewrite B in B'. injection B' as <-.
        apply M in Iq as (a & b & [= <-] & [= <-] & Nq). exists j, q'. auto.
Qed.
End Graph.

Lemma goal_test_spec g n : (0 <= g)%Z -> goal_test g n = true <-> n = Z.to_nat g.
Proof. intros H. unfold goal_test. rewrite Z.eqb_eq. lia. Qed.

Lemma boron_problem_ok g : (1 <= g)%Z -> exists bg, boron_problem g = Ok bg /\ c2_m bg = boron_m /\
  g2_width (c2_grid bg) = Z.to_nat g /\ g2_length (c2_grid bg) = Z.to_nat g.
Proof.
  intros H. unfold boron_problem. destruct (Z.to_nat g) as [|k] eqn:E; [lia|].
  eexists. split; [reflexivity|]. cbn [c2_m c2_grid g2_width g2_length]. now rewrite !repeat_length.
Qed.

Lemma length_keys2 n : length (keys2 n n) = n * n.
Proof.
  unfold keys2. rewrite map_length. unfold p_gen2, range.
  assert (H : forall l, length (flat_map (fun x => map (fun y => (Z.of_nat x, Z.of_nat y)) (seq 0 n)) l) = length l * n).
  { induction l as [|a l IH]; cbn; [reflexivity|]. rewrite app_length, map_length, seq_length, IH. reflexivity. }
  rewrite H, seq_length. reflexivity.
Qed.

Lemma boron_lemma order rnd g fuel : (2 <= g)%Z -> (forall k l, Permutation l (order k l)) -> Z.to_nat g <= fuel ->
  let n := Z.to_nat g in
  exists ps, boron_walk fuel order rnd g = Some (Ok (map VTup ps)) /\ Forall (in_grid2 n n) ps /\
    arrangement (neighbour2 boron_m arrange_delta n n) [g / 2; g / 2]%Z n ps.
Proof.
  intros Hg Ho Lf n. unfold boron_walk. destruct (boron_problem_ok (g := g)) as (bg & -> & Em & Ew & El); [lia|].
  unfold get_midpoint2. rewrite Ew, El. fold n.
  assert (Mid : Z.of_nat (n / 2) = (g / 2)%Z). { rewrite Nat2Z.inj_div. f_equal. unfold n. lia. }
  rewrite Mid.
  assert (Nn : 2 <= n) by (unfold n; lia).
  assert (Sx : (fst (fst boron_m) * fst (fst boron_m) + snd (fst boron_m) * snd (fst boron_m) <= arrange_delta * arrange_delta)%Qc).
  { apply Qcleb_le. vm_compute. reflexivity. }
  assert (Sy : (fst (snd boron_m) * fst (snd boron_m) + snd (snd boron_m) * snd (snd boron_m) <= arrange_delta * arrange_delta)%Qc).
  { apply Qcleb_le. vm_compute. reflexivity. }
  apply (@graph_walk (in_grid2 n n) (neighbour2 boron_m arrange_delta n n) (keys2 n n)).
  - intros q. apply keys2_In.
  - apply keys2_NoDup.
  - intros p q (A & B & _). auto.
  - intros p. apply plane_two; assumption.
  - intros S. apply plane_connected; assumption.
  - intros p (x & y & -> & _). unfold cstru2_get_neighbors. rewrite Em, Ew, El. apply neighbors2_answers.
  - reflexivity.
  - assumption.
  - intros k. apply goal_test_spec. lia.
  - exists (g / 2)%Z, (g / 2)%Z. split; [reflexivity|].
    assert (0 <= g / 2 < Z.of_nat n)%Z; [|auto]. unfold n. split; [apply Z.div_pos; lia|].
    rewrite Z2Nat.id by lia. apply Z.div_lt; lia.
  - rewrite length_keys2. nia.
  - assumption.
Qed.

Lemma boron_one order rnd fuel : boron_walk fuel order rnd 1 = Some (Raise ValueError).
Proof. reflexivity. Qed.
Lemma boron_zero order rnd fuel g : (g <= 0)%Z -> boron_walk fuel order rnd g = Some (Raise IndexError).
Proof. intros H. unfold boron_walk, boron_problem. replace (Z.to_nat g) with 0 by lia. reflexivity. Qed.

(** The neighbour relation of the boron problem: the six neighbours of a triangular lattice. *)
Definition hex (dx dy : Z) : Prop := In (dx, dy) [(1, 0); (-1, 0); (0, 1); (0, -1); (1, -1); (-1, 1)]%Z.
Lemma boron_hex n a b x y :
  neighbour2 boron_m arrange_delta n n [a; b] [x; y] <-> in_grid2 n n [x; y] /\ hex (x - a) (y - b).
Proof.
  assert (K : near2 boron_m arrange_delta [a; b] [x; y] <->
    (1000000000000 * (2 * (x - a) + (y - b)) * (2 * (x - a) + (y - b)) + 3000024915364 * (y - b) * (y - b) <= 4410000000000)%Z).
  { transitivity ((Zc (2 * (x - a) + (y - b)) * Zc (2 * (x - a) + (y - b)) + Zc (y - b) * Zc (y - b) * Q2Qc (3000024915364 # 1000000000000) <= Q2Qc (441 # 100))%Qc).
    - unfold near2. split.
      + intros (a' & b' & x' & y' & [= <- <-] & [= <- <-] & H). cbv zeta in H. cbn [boron_m fst snd] in H.
        match type of H with (?u <= ?v)%Qc => match goal with |- (?s <= ?t)%Qc => replace s with u; [replace t with v; [exact H|]|] end end.
        * apply Qc_is_canon. reflexivity.
        * rewrite !Zc_plus, !Zc_mult. set (p := Zc (x - a)). set (q := Zc (y - b)).
          replace (Q2Qc (3000024915364 # 1000000000000)) with (Q2Qc (1732058 # 1000000) * Q2Qc (1732058 # 1000000))%Qc by (apply Qc_is_canon; reflexivity).
          replace (Zc 0) with 0%Qc by (now rewrite Zc_0). rewrite Zc_1. ring.
      + intros H. exists a, b, x, y. split; [reflexivity|]. split; [reflexivity|]. cbv zeta. cbn [boron_m fst snd].
        match goal with |- (?u <= ?v)%Qc => match type of H with (?s <= ?t)%Qc => replace u with s; [replace v with t; [exact H|]|] end end.
        * apply Qc_is_canon. reflexivity.
        * rewrite !Zc_plus, !Zc_mult. set (p := Zc (x - a)). set (q := Zc (y - b)).
          replace (Q2Qc (3000024915364 # 1000000000000)) with (Q2Qc (1732058 # 1000000) * Q2Qc (1732058 # 1000000))%Qc by (apply Qc_is_canon; reflexivity).
          replace (Zc 0) with 0%Qc by (now rewrite Zc_0). rewrite Zc_1. ring.
    - generalize (2 * (x - a) + (y - b))%Z as s. generalize (y - b)%Z as t. intros t s.
      rewrite <- !Zc_mult. unfold Qcle. rewrite this_plus, this_mult, !this_Q2Qc, !this_Zc.
      unfold Qle, Qplus, Qmult, inject_Z. cbn [Qnum Qden]. lia. }
  unfold neighbour2. rewrite K. unfold hex. cbn [In].
  set (dx := (x - a)%Z). set (dy := (y - b)%Z).
  assert (Ne : [x; y] <> [a; b] <-> ~ (dx = 0 /\ dy = 0)%Z).
  { unfold dx, dy. split; intros H E; apply H; [f_equal; [lia|f_equal; lia]|injection E as -> ->; lia]. }
  rewrite Ne. clearbody dx dy. clear K Ne. split.
  - intros (I & D & H). split; [assumption|].
    assert (-1 <= dy <= 1)%Z by nia. assert (-2 <= 2 * dx + dy <= 2)%Z by nia.
    assert (C : (dy = -1 \/ dy = 0 \/ dy = 1)%Z) by lia. assert (E : (dx = -1 \/ dx = 0 \/ dx = 1)%Z) by lia.
    destruct C as [-> | [-> | ->]], E as [-> | [-> | ->]]; try (exfalso; lia); tauto.
  - intros (I & H). split; [assumption|].
    repeat (destruct H as [H|H]; [injection H as <- <-; split; lia|]). destruct H.
Qed.

(** FCC *)
Lemma alloc_shape planes : forall hp ads hp', alloc hp planes = (ads, hp') -> length ads = length planes /\
  exists ext, hp' = hp ++ concat planes ++ ext.
Proof.
  induction planes as [|p t IH]; intros hp ads hp' E; cbn in E.
  - injection E as <- <-. split; [reflexivity|]. exists []. now rewrite !app_nil_r.
  - destruct (alloc (hp ++ p) t) as [a h] eqn:F. injection E as <- <-. destruct (IH _ _ _ F) as (L & ext & X).
    split; [cbn; now rewrite L|]. exists ext. rewrite X. cbn. now rewrite <- !app_assoc.
Qed.
Lemma fcc_problem_ok hp g : (1 <= g)%Z -> exists bg hp', fcc_problem hp g = Ok (bg, hp') /\ c_m bg = fcc_m /\
  g_depth (c_grid bg) = Z.to_nat g /\ g_width (c_grid bg) = Z.to_nat g /\ g_length (c_grid bg) = Z.to_nat g.
Proof.
  intros H. unfold fcc_problem. set (n := Z.to_nat g). assert (Nn : 1 <= n) by (unfold n; lia). clearbody n.
  destruct n as [|k]; [lia|]. set (row := repeat GhostSpecie_new (S k)). set (plane := repeat row (S k)).
  unfold grid_of. change (repeat plane (S k)) with (plane :: repeat plane k). cbn [alloc].
  destruct (alloc (hp ++ plane) (repeat plane k)) as [ads hp'] eqn:A.
  destruct (alloc_shape A) as (L & ext & E). rewrite repeat_length in L.
  unfold SitesGrid_new. cbn [get_nth nth_error bind].
  assert (Lp : length plane = S k) by (unfold plane; apply repeat_length).
  unfold get_nth at 1. cbn [nth_error bind]. rewrite Lp. cbn [seq]. unfold get_nth at 1. cbn [nth_error bind].
  assert (R : nth_error hp' (length hp) = Some row).
  { rewrite E, <- app_assoc, nth_error_app2, Nat.sub_diag by lia. reflexivity. }
  unfold get_nth. rewrite R. cbn [bind]. eexists _, _. split; [reflexivity|]. cbn [c_m c_grid g_depth g_width g_length length].
  rewrite seq_length, L. unfold row. rewrite repeat_length. auto.
Qed.
Lemma length_keys3 n : length (keys3 n n n) = n * n * n.
Proof.
  unfold keys3. rewrite map_length. unfold p_gen, range.
  assert (H1 : forall z l, length (flat_map (fun x => map (fun y => (Z.of_nat x, Z.of_nat y, Z.of_nat z)) (seq 0 n)) l) = length l * n).
  { induction l as [|a l IH]; cbn; [reflexivity|]. rewrite app_length, map_length, seq_length, IH. reflexivity. }
  assert (H : forall l, length (flat_map (fun z => flat_map (fun x => map (fun y => (Z.of_nat x, Z.of_nat y, Z.of_nat z)) (seq 0 n)) (seq 0 n)) l) = length l * (n * n)).
  { induction l as [|a l IH]; cbn [flat_map length]; [reflexivity|]. rewrite app_length, H1, seq_length, IH. lia. }
  rewrite H, seq_length. lia.
Qed.

Lemma fcc_lemma hp order rnd g fuel : (2 <= g)%Z -> (forall k l, Permutation l (order k l)) -> Z.to_nat g <= fuel ->
  let n := Z.to_nat g in
  exists ps, fcc_walk fuel order rnd hp g = Some (Ok (map VTup ps)) /\ Forall (in_grid n n n) ps /\
    arrangement (neighbour fcc_m arrange_delta n n n) [g / 2; g / 2; g / 2]%Z n ps.
Proof.
  intros Hg Ho Lf n. unfold fcc_walk. destruct (fcc_problem_ok hp (g := g)) as (bg & hp' & -> & Em & Ed & Ew & El); [lia|].
  unfold midpoint_val, get_midpoint. rewrite Ed, Ew, El. fold n.
  assert (Mid : Z.of_nat (n / 2) = (g / 2)%Z). { rewrite Nat2Z.inj_div. f_equal. unfold n. lia. }
  rewrite Mid.
  assert (Nn : 2 <= n) by (unfold n; lia).
  assert (Sx : (vdot (vx fcc_m) (vx fcc_m) <= arrange_delta * arrange_delta)%Qc) by (apply Qcleb_le; vm_compute; reflexivity).
  assert (Sy : (vdot (vy fcc_m) (vy fcc_m) <= arrange_delta * arrange_delta)%Qc) by (apply Qcleb_le; vm_compute; reflexivity).
  assert (Sz : (vdot (vz fcc_m) (vz fcc_m) <= arrange_delta * arrange_delta)%Qc) by (apply Qcleb_le; vm_compute; reflexivity).
  apply (@graph_walk (in_grid n n n) (neighbour fcc_m arrange_delta n n n) (keys3 n n n)).
  - intros q. apply keys3_In.
  - apply keys3_NoDup.
  - intros p q (A & B & _). auto.
  - intros p. apply space_two; assumption.
  - intros S. apply space_connected; assumption.
  - intros p (x & y & z & -> & _). unfold cstru_get_neighbors. rewrite Em, Ed, Ew, El. apply neighbors3_answers.
  - reflexivity.
  - assumption.
  - intros k. apply goal_test_spec. lia.
  - assert (B : (0 <= g / 2 < Z.of_nat n)%Z).
    { unfold n. split; [apply Z.div_pos; lia|]. rewrite Z2Nat.id by lia. apply Z.div_lt; lia. }
    exists (g / 2)%Z, (g / 2)%Z, (g / 2)%Z. auto.
  - rewrite length_keys3. assert (n * n * n >= n) by nia. lia.
  - assumption.
Qed.
