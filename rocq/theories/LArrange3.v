(** Lemmas for neighbour queries and the two arrangement problems. *)
From Verif Require Import Base LBase BaseQ LQ MElement MGrid MArrange SArrange LHnf LArrange LArrange2.
Set Implicit Arguments.
Unset Strict Implicit.
Open Scope nat_scope.

Lemma list_eqbZ_eq a b : list_eqb Z.eqb a b = true <-> a = b.
Proof.
  revert b; induction a as [|x a IH]; intros [|y b]; cbn; split; try congruence.
  - rewrite andb_true_iff, Z.eqb_eq, IH. intros [-> ->]. reflexivity.
  - intros [= -> ->]. rewrite andb_true_iff, Z.eqb_eq, IH. auto.
Qed.
Lemma pyval_eqb_eq a b : pyval_eqb a b = true <-> a = b.
Proof.
  destruct a, b; cbn; try (split; congruence).
  - rewrite Z.eqb_eq. split; congruence.
  - rewrite list_eqbZ_eq. split; congruence.
Qed.

Lemma mapM_length A B (f : A -> res B) l l' : mapM f l = Ok l' -> length l' = length l.
Proof.
  revert l'; induction l as [|a l IH]; cbn; intros l' H; [now injection H as <-|].
  destruct (f a); cbn in H; [|discriminate]. destruct (mapM f l); cbn in H; [|discriminate].
  injection H as <-. cbn. f_equal. now apply IH.
Qed.

Lemma take_ball A (f : A -> Qc) (g : Qc -> bool) (keys pre : list A) :
  mapM (get_nth (pre ++ keys)) (map fst (filter (fun e => g (snd e)) (combine (seq (length pre) (length (map f keys))) (map f keys))))
  = Ok (filter (fun k => g (f k)) keys).
Proof.
  revert pre; induction keys as [|k keys IH]; intros pre; cbn; [reflexivity|].
  specialize (IH (pre ++ [k])). rewrite <- app_assoc in IH. cbn [app] in IH.
  rewrite app_length in IH. cbn [length] in IH. rewrite Nat.add_1_r in IH.
  destruct (g (f k)); cbn [map mapM fst].
  - unfold get_nth at 1. rewrite nth_error_app2, Nat.sub_diag by lia. cbn [nth_error bind].
    rewrite IH. reflexivity.
  - exact IH.
Qed.

Lemma ball_ok sq delta : sq <> [] -> ball sq delta =
  Ok (map fst (filter (fun e => Qcleb (snd e) (delta * delta)%Qc) (combine (seq 0 (length sq)) sq))).
Proof. destruct sq; [congruence|reflexivity]. Qed.

Lemma query_answers (P N : list Z -> Prop) p keys (f : list Z -> Qc) delta :
  NoDup keys -> (forall q, P q <-> In q keys) ->
  (forall q, N q <-> P q /\ q <> p /\ (f q <= delta * delta)%Qc) ->
  answers P N p
    (if negb (existsb (list_eqb Z.eqb p) keys) then Raise KeyError
     else let keys' := filter (fun k => negb (list_eqb Z.eqb p k)) keys in
          do ind <- ball (map f keys') delta; item_set keys' ind).
Proof.
  intros ND HP HN. cbv zeta.
  set (keys' := filter (fun k => negb (list_eqb Z.eqb p k)) keys).
  assert (K' : forall q, In q keys' <-> P q /\ q <> p).
  { intros q. unfold keys'. rewrite filter_In, HP, negb_true_iff. split.
    - intros [A B]. split; [assumption|]. intros ->. rewrite (proj2 (list_eqbZ_eq p p)) in B by reflexivity. discriminate.
    - intros [A B]. split; [assumption|]. destruct (list_eqb Z.eqb p q) eqn:E; [|reflexivity]. apply list_eqbZ_eq in E. congruence. }
  assert (Pp : P p <-> existsb (list_eqb Z.eqb p) keys = true).
  { rewrite HP, existsb_exists. split.
    - intros I. exists p. split; [assumption|]. now apply list_eqbZ_eq.
    - intros (y & I & E). apply list_eqbZ_eq in E. now subst. }
  assert (ND' : NoDup keys') by (now apply NoDup_filter).
  set (sel := filter (fun k => Qcleb (f k) (delta * delta)%Qc) keys').
  assert (Sel : forall q, In q sel <-> N q).
  { intros q. unfold sel. rewrite filter_In, K', HN, Qcleb_le. tauto. }
  assert (NDs : NoDup sel) by (now apply NoDup_filter).
  destruct (existsb (list_eqb Z.eqb p) keys) eqn:E; cbn [negb].
  2:{ split; [reflexivity|]. assert (~ P p) by (rewrite Pp; discriminate). tauto. }
  split; [intros Q; exfalso; apply Q, Pp; reflexivity|].
  assert (R : keys' <> [] -> exists ind, ball (map f keys') delta = Ok ind /\ mapM (get_nth keys') ind = Ok sel /\ length ind = length sel).
  { intros NE. eexists. split; [apply ball_ok; now destruct keys'|].
    pose proof (take_ball f (fun d => Qcleb d (delta * delta)%Qc) keys' []) as T. cbn [app length] in T.
    split; [exact T|]. symmetry. eapply mapM_length. exact T. }
  assert (Emp : (exists q, P q /\ q <> p) -> keys' <> []).
  { intros (q & A & B) Q. assert (I : In q keys') by (now apply K'). rewrite Q in I. destruct I. }
  split; [|split; [|split]].
  - intros _ A. destruct keys' as [|k0 k1] eqn:EK; [reflexivity|]. exfalso.
    destruct (proj1 (K' k0) (or_introl eq_refl)) as [B C]. apply C. now apply A.
  - intros _ A B. destruct (R (Emp A)) as (ind & -> & _ & L). cbn [bind].
    assert (E0 : sel = []). { destruct sel as [|s0 s1]; [reflexivity|]. exfalso. apply (B s0), Sel. now left. }
    rewrite E0 in L. destruct ind; [reflexivity|discriminate].
  - intros _ q Nq U. assert (Iq : In q sel) by (now apply Sel).
    assert (E0 : sel = [q]).
    { destruct sel as [|s0 [|s1 s2]]; [destruct Iq| |].
      - destruct Iq as [->|[]]. reflexivity.
      - exfalso. inversion NDs; subst. apply H1. left.
        rewrite (U s0), (U s1); [reflexivity|apply Sel; cbn; auto..]. }
    destruct R as (ind & -> & T & L). { apply Emp. exists q. apply HN in Nq. tauto. }
    cbn [bind]. rewrite E0 in L, T. destruct ind as [|i [|j ind]]; try discriminate. cbn in T |- *.
    destruct (get_nth keys' i); cbn in T |- *; [|discriminate]. injection T as ->.
    eexists. split; [reflexivity|]. split; [apply NoDup_nodup|]. intros z. apply nodup_In.
  - intros _ q1 q2 N1 N2 D. destruct R as (ind & -> & T & L). { apply Emp. exists q1. apply HN in N1. tauto. }
    cbn [bind]. unfold item_set, take_idx. destruct ind as [|i [|j ind]].
    + destruct sel; [|discriminate]. apply Sel in N1. destruct N1.
    + destruct sel as [|s0 [|s1 s2]]; try discriminate. apply Sel in N1, N2. cbn in N1, N2. exfalso. apply D. intuition congruence.
    + rewrite T. cbn [bind]. exists sel. auto.
Qed.

(** ** three dimensions *)
Definition conv3 (k : Z * Z * Z) : list Z := let '(a, b, c) := k in [a; b; c].
Lemma pos_eqb_conv p q : pos_eqb p q = list_eqb Z.eqb (conv3 p) (conv3 q).
Proof. destruct p as [[a b] c], q as [[x y] z]. cbn. now rewrite andb_true_r, andb_assoc. Qed.
Lemma map_filter_comm A B (h : A -> B) (f : A -> bool) (g : B -> bool) l :
  (forall x, f x = g (h x)) -> map h (filter f l) = filter g (map h l).
Proof. intros H. induction l as [|a l IH]; cbn; [reflexivity|]. rewrite <- H. destruct (f a); cbn; now rewrite IH. Qed.
Lemma existsb_map A B (h : A -> B) (f : A -> bool) (g : B -> bool) l :
  (forall x, f x = g (h x)) -> existsb f l = existsb g (map h l).
Proof. intros H. induction l as [|a l IH]; cbn; [reflexivity|]. now rewrite H, IH. Qed.

Definition keys3 (d w l : nat) : list (list Z) := map conv3 (p_gen d w l).
Lemma keys3_In d w l q : In q (keys3 d w l) <-> in_grid w l d q.
Proof.
  unfold keys3, p_gen, in_grid, range. rewrite in_map_iff. split.
  - intros ([[x y] z] & <- & H). apply in_flat_map in H as (z' & Hz & H). apply in_flat_map in H as (x' & Hx & H).
    apply in_map_iff in H as (y' & E & Hy). injection E as <- <- <-. apply in_seq in Hx, Hy, Hz.
    exists (Z.of_nat x'), (Z.of_nat y'), (Z.of_nat z'). split; [reflexivity|]. lia.
  - intros (x & y & z & -> & Hx & Hy & Hz). exists (x, y, z). split; [reflexivity|].
    apply in_flat_map. exists (Z.to_nat z). split; [apply in_seq; lia|].
    apply in_flat_map. exists (Z.to_nat x). split; [apply in_seq; lia|].
    apply in_map_iff. exists (Z.to_nat y). split; [repeat f_equal; lia|apply in_seq; lia].
Qed.
Lemma NoDup_flat_map A B (f : A -> list B) l : NoDup l -> (forall a, In a l -> NoDup (f a)) ->
  (forall a b x, In a l -> In b l -> In x (f a) -> In x (f b) -> a = b) -> NoDup (flat_map f l).
Proof.
  induction l as [|a l IH]; intros N H1 H2; cbn; [constructor|]. inversion N; subst.
  apply NoDup_app_disj.
  - apply H1. now left.
  - apply IH; [assumption| |]; intros; [apply H1; now right|eapply H2; eauto; now right].
  - intros x X Y. apply in_flat_map in Y as (b & B1 & B2). apply H3.
    rewrite (H2 a b x); auto; [now left|now right].
Qed.
Lemma keys3_NoDup d w l : NoDup (keys3 d w l).
Proof.
  unfold keys3. apply FinFun.Injective_map_NoDup.
  { intros [[a b] c] [[x y] z] [= -> -> ->]. reflexivity. }
  unfold p_gen, range. apply NoDup_flat_map; [apply seq_NoDup| |].
  - intros z _. apply NoDup_flat_map; [apply seq_NoDup| |].
    + intros x _. apply FinFun.Injective_map_NoDup; [|apply seq_NoDup]. intros a b [= E]. lia.
    + intros a b q _ _ A B. apply in_map_iff in A as (u & <- & _), B as (v & E & _). injection E as E1 E2. lia.
  - intros a b q _ _ A B. apply in_flat_map in A as (x1 & _ & A), B as (x2 & _ & B).
    apply in_map_iff in A as (u & <- & _), B as (v & E & _). injection E as E1 E2 E3. lia.
Qed.

Definition f3 (m : mat Qc) (x y z : Z) (q : list Z) : Qc :=
  match q with [a; b; c] => sqlen (vsub (pos2coor m a b c) (pos2coor m x y z)) | _ => 0%Qc end.

Lemma pos2coor_diff m a b c x y z :
  vsub (pos2coor m x y z) (pos2coor m a b c) = vec_mat (vecZ (V3 (x - a) (y - b) (z - c))%Z) m.
Proof.
  unfold vsub, pos2coor, vec_mat, vecZ, vmap, vadd, vscale; cbn [vx vy vz]. rewrite !Zc_minus. f_equal; ring.
Qed.

Lemma neighbors3_answers m d w l x y z delta :
  answers (in_grid w l d) (neighbour m delta w l d [x; y; z]) [x; y; z] (get_neighbors m d w l (VTup [x; y; z]) delta).
Proof.
  unfold get_neighbors.
  rewrite (existsb_map (h := conv3) (g := list_eqb Z.eqb [x; y; z])) by (intros; apply pos_eqb_conv).
  cbv zeta. rewrite map_map. change (fun k : Z * Z * Z => let '(a, b, c) := k in [a; b; c]) with conv3.
  rewrite (map_ext _ (fun k => f3 m x y z (conv3 k))) by (intros [[a b] c]; reflexivity).
  rewrite <- (map_map conv3 (f3 m x y z)).
  rewrite (map_filter_comm (h := conv3) (g := fun k => negb (list_eqb Z.eqb [x; y; z] k)))
    by (intros; f_equal; apply (pos_eqb_conv (x, y, z))).
  apply (@query_answers (in_grid w l d) (neighbour m delta w l d [x; y; z]) [x; y; z] (keys3 d w l)).
  - apply keys3_NoDup.
  - intros q. now rewrite keys3_In.
  - intros q. unfold neighbour, near. split.
    + intros (A & B & a & b & c & u & v & t & E & -> & H). injection E as <- <- <-. split; [assumption|]. split; [assumption|].
      unfold f3, sqlen. rewrite pos2coor_diff. exact H.
    + intros (A & B & H). split; [assumption|]. split; [assumption|].
      destruct A as (u & v & t & -> & _). exists x, y, z, u, v, t. split; [reflexivity|]. split; [reflexivity|].
      unfold f3, sqlen in H. rewrite pos2coor_diff in H. exact H.
Qed.

(** ** two dimensions *)
Definition conv2 (k : Z * Z) : list Z := [fst k; snd k].
Lemma pos_eqb2_conv p q : pos_eqb2 p q = list_eqb Z.eqb (conv2 p) (conv2 q).
Proof. destruct p, q. unfold pos_eqb2; cbn. now rewrite andb_true_r. Qed.
Definition keys2 (w l : nat) : list (list Z) := map conv2 (p_gen2 w l).
Lemma keys2_In w l q : In q (keys2 w l) <-> in_grid2 w l q.
Proof.
  unfold keys2, p_gen2, in_grid2, range. rewrite in_map_iff. split.
  - intros ([x y] & <- & H). apply in_flat_map in H as (x' & Hx & H).
    apply in_map_iff in H as (y' & E & Hy). injection E as <- <-. apply in_seq in Hx, Hy.
    exists (Z.of_nat x'), (Z.of_nat y'). split; [reflexivity|]. lia.
  - intros (x & y & -> & Hx & Hy). exists (x, y). split; [reflexivity|].
    apply in_flat_map. exists (Z.to_nat x). split; [apply in_seq; lia|].
    apply in_map_iff. exists (Z.to_nat y). split; [repeat f_equal; lia|apply in_seq; lia].
Qed.
Lemma keys2_NoDup w l : NoDup (keys2 w l).
Proof.
  unfold keys2. apply FinFun.Injective_map_NoDup.
  { intros [a b] [x y] [= -> ->]. reflexivity. }
  unfold p_gen2, range. apply NoDup_flat_map; [apply seq_NoDup| |].
  - intros x _. apply FinFun.Injective_map_NoDup; [|apply seq_NoDup]. intros a b [= E]. lia.
  - intros a b q _ _ A B. apply in_map_iff in A as (u & <- & _), B as (v & E & _). injection E as E1 E2. lia.
Qed.
Definition f2 (m : vec2 * vec2) (x y : Z) (q : list Z) : Qc :=
  match q with [a; b] => sqdist2 (pos2coor2 m a b) (pos2coor2 m x y) | _ => 0%Qc end.
Lemma sqdist2_diff m a b x y : sqdist2 (pos2coor2 m x y) (pos2coor2 m a b) =
  (let u := (Zc (x - a) * fst (fst m) + Zc (y - b) * fst (snd m))%Qc in
   let v := (Zc (x - a) * snd (fst m) + Zc (y - b) * snd (snd m))%Qc in u * u + v * v)%Qc.
Proof. destruct m as [[p q] [r s]]. unfold sqdist2, pos2coor2; cbn [fst snd]. cbv zeta. rewrite !Zc_minus. ring. Qed.

Lemma neighbors2_answers m w l x y delta :
  answers (in_grid2 w l) (neighbour2 m delta w l [x; y]) [x; y] (get_neighbors2 m w l (VTup [x; y]) delta).
Proof.
  unfold get_neighbors2.
  rewrite (existsb_map (h := conv2) (g := list_eqb Z.eqb [x; y])) by (intros; apply (pos_eqb2_conv (x, y))).
  cbv zeta. change (fun k : Z * Z => [fst k; snd k]) with conv2.
  rewrite (map_ext (fun k => sqdist2 (pos2coor2 m (fst k) (snd k)) (pos2coor2 m x y)) (fun k => f2 m x y (conv2 k))) by reflexivity.
  rewrite <- (map_map conv2 (f2 m x y)).
  rewrite (map_filter_comm (h := conv2) (g := fun k => negb (list_eqb Z.eqb [x; y] k)))
    by (intros; f_equal; apply (pos_eqb2_conv (x, y))).
  apply (@query_answers (in_grid2 w l) (neighbour2 m delta w l [x; y]) [x; y] (keys2 w l)).
  - apply keys2_NoDup.
  - intros q. now rewrite keys2_In.
  - intros q. unfold neighbour2, near2. split.
    + intros (A & B & a & b & u & v & E & -> & H). injection E as <- <-. split; [assumption|]. split; [assumption|].
      unfold f2. rewrite sqdist2_diff. exact H.
    + intros (A & B & H). split; [assumption|]. split; [assumption|].
      destruct A as (u & v & -> & _). exists x, y, u, v. split; [reflexivity|]. split; [reflexivity|].
      unfold f2 in H. rewrite sqdist2_diff in H. exact H.
Qed.
