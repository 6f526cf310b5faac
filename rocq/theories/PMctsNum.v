(** C93: the running average of the tree search, with Python's numbers. *)
From Verif Require Import Base BaseQ MMcts MMctsNum SMctsNum LQ LMctsNum.
Set Implicit Arguments.
Open Scope Z_scope.

(** The value of a node is the average of the leaf values if [/] divides, or if the first value
    is a float. *)
Theorem C93_average : forall py2 vs, py2 = false \/ (exists x r, vs = PFloat x :: r) ->
  fst (stat_after py2 vs) = length vs /\ average (map val vs) (val (snd (stat_after py2 vs))).
Proof. exact C93_average_lemma. Qed.
Print Assumptions C93_average.

(** In these cases this is the update of [MMcts]. *)
Theorem C93_model : forall A py2 fsqrt (h : heap A) self (v q : num) c n h',
  nth_error h self = Some n -> n_Q n = val q ->
  py2 = false \/ (exists x, q = PFloat x) \/ (exists x, v = PFloat x) ->
  update fsqrt h self (val v) c = Ok h' ->
  exists n', nth_error h' self = Some n' /\
    (n_visits n', n_Q n') = (fst (update_stat py2 (n_visits n, q) v), val (snd (update_stat py2 (n_visits n, q) v))).
Proof.
  intros A py2 fsqrt h self v q c n h' N Q K U. unfold update, get_nth in U. rewrite N in U. cbn in U.
  assert (S : forall x, set_nth h self x = Ok h' -> nth_error h' self = Some x).
  { intros x E. clear U Q. revert self h' N E. induction h as [|y h IH]; intros [|s] h' N E; cbn in *; try discriminate.
    - inversion E. reflexivity.
    - destruct (set_nth h s x) as [t|] eqn:F; [|discriminate]. inversion E. cbn. eauto. }
  pose proof (@update_val py2 (n_visits n) q v K) as V.
  destruct (n_parent n) as [p|].
  - destruct (nth_error h p) as [np|]; [|discriminate]. apply S in U. eexists. split; [exact U|].
    cbn [n_visits n_Q]. rewrite V, Q. reflexivity.
  - apply S in U. eexists. split; [exact U|]. cbn [n_visits n_Q]. rewrite V, Q. reflexivity.
Qed.
Print Assumptions C93_model.

(** The leaf value is the weighted sum, and an int exactly if the weight is an int and the value
    function (if it is called at all) returned an int. *)
Theorem C93_leaf : forall lmbda v z, (0 <= val lmbda <= 1)%Qc ->
  val (leaf_num lmbda v z) = ((1 - val lmbda) * val v + val lmbda * Zc z)%Qc.
Proof. exact C93_leaf_lemma. Qed.
Print Assumptions C93_leaf.
Theorem C93_kind : forall lmbda v z, (exists i, leaf_num lmbda v z = PInt i) <->
  (exists l, lmbda = PInt l) /\ ((val lmbda < 1)%Qc -> exists i, v = PInt i).
Proof. exact C93_kind_lemma. Qed.
Print Assumptions C93_kind.

(** Integer leaf values on Python 2: the first two visits, and the exact rule once there have been
    twice as many visits as the largest value (scores are -1, 0, 1: from the third visit on).
    A value below the present one takes 1 off; nothing ever adds to it again. *)
Theorem C93_first_two : forall a b,
  snd (stat_after true [PInt a]) = PInt a /\ snd (stat_after true [PInt a; PInt b]) = PInt (a + (b - a) / 2).
Proof. exact first_two. Qed.
Print Assumptions C93_first_two.
Theorem C93_law : forall M vs v, Forall (fun v => Z.abs v <= M) (vs ++ [v]) -> 2 * M <= Z.of_nat (length vs) ->
  exists q, snd (stat_after true (map PInt vs)) = PInt q /\ Z.abs q <= M /\
    snd (stat_after true (map PInt (vs ++ [v]))) = PInt (if v <? q then q - 1 else q).
Proof. exact C93_law_lemma. Qed.
Print Assumptions C93_law.
Theorem C93_down : forall M vs ws, 0 <= M -> Forall (fun v => Z.abs v <= M) (vs ++ ws) -> 2 * M <= Z.of_nat (length vs) ->
  exists q q', snd (stat_after true (map PInt vs)) = PInt q /\ snd (stat_after true (map PInt (vs ++ ws))) = PInt q' /\ - M <= q' <= q.
Proof. exact C93_down_lemma. Qed.
Print Assumptions C93_down.

(** Violation: one win, two losses, then any number of wins: the value is -1, the average tends
    to 1. *)
Theorem C93_refuted : forall m, let vs := 1 :: -1 :: -1 :: repeat 1 m in
  snd (stat_after true (map PInt vs)) = PInt (-1) /\ average (map Zc vs) (Zc (Z.of_nat m - 1) / Zc (Z.of_nat m + 3))%Qc.
Proof. exact C93_refuted_lemma. Qed.
Print Assumptions C93_refuted.

(** Concrete cases: the default weight 0.5, the weights 1 and 1.0, and six rollouts. *)
Example C93_leaf_ex : leaf_num (PFloat (Q2Qc (1 # 2))) (PInt 1) (-1) = PFloat 0 /\ leaf_num (PInt 1) (PFloat 1) (-1) = PInt (-1) /\
  leaf_num (PFloat 1) (PInt 1) (-1) = PFloat (-(1)) /\ leaf_num (PInt 0) (PInt 1) (-1) = PInt 1.
Proof. repeat split; cbn; f_equal; apply Qc_is_canon; reflexivity. Qed.
Example C93_ints_ex : map (fun k => snd (stat_after true (map PInt (firstn k [1; 1; 0; 1; 1; 1])))) [1; 2; 3; 4; 5; 6]%nat =
  [PInt 1; PInt 1; PInt 0; PInt 0; PInt 0; PInt 0].
Proof. vm_compute. reflexivity. Qed.
Example C93_floats_ex : this (val (snd (stat_after true (map (fun z => PFloat (Zc z)) [1; 1; 0; 1])))) = (3 # 4)%Q.
Proof. vm_compute. reflexivity. Qed.
