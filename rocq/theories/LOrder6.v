(** The buckyball generators do what the generators on cells do. *)
From Coq Require Import String Sorted.
From Verif Require Import Base LBase BaseQ MGeneralCell SGeneralCell LGeneralCell MComb SSubst LComb SSym LSym MSogen LFilter SOcc SEnum LDup LLevels SOrder LSort LOrder LOrder2 LOrder3 LOrder4 LOrder5 MBuckyTable MBucky.
Set Implicit Arguments.
Unset Strict Implicit.
Open Scope nat_scope.

Section Sim.
Context (h : list Z -> Z) (c0 : gcell).
Hypothesis FC : from_constructor c0.
Let n := length (numbers c0).
Definition lift (t : trace (list Z)) : trace gcell := mkTrace (map (cellof c0) (items t)) (stop t).

Lemma iso_sim iso x perms : b_update_isoset h iso x perms = update_isoset h iso x perms.
Proof. revert iso. induction perms as [|p ps IH]; intros iso; cbn; [reflexivity|]. destruct (take_idx x p); cbn; auto. Qed.
Lemma nodup_sim perms xs fin : forall iso,
  nodup_loop h perms (fun c => c) iso (map (cellof c0) xs) fin = lift (b_nodup_loop h perms iso xs fin).
Proof.
  induction xs as [|x xs IH]; intros iso; cbn [map nodup_loop b_nodup_loop]; [reflexivity|].
  change (cell_id h (cellof c0 x)) with (h x). destruct (memZ (h x) iso); [apply IH|].
  change (numbers (cellof c0 x)) with x. change (b_update_isoset h iso x perms) with (update_isoset h iso x perms). destruct (update_isoset h iso x perms); [|reflexivity].
  rewrite IH. reflexivity.
Qed.
Lemma inner_sim v x es : length x = n -> forall db,
  add_one_inner h (cellof c0 x) v (cond_unitary v) db es =
  let '(l, db', e) := b_add_inner h x v db es in (map (cellof c0) l, db', e).
Proof.
  intros L. induction es as [|[i a] es IH]; intros db; cbn [add_one_inner b_add_inner]; [reflexivity|].
  unfold cond_unitary at 1. rewrite Z.eqb_sym. destruct (Z.eqb a v); cbn [negb]; [apply IH|].
  change (numbers (cellof c0 x)) with x. destruct (set_nth x i v) as [y|e] eqn:E; [|reflexivity].
  destruct (memZ (h y) db); [apply IH|]. cbn [lattice positions cellof].
  assert (Ly : length y = n) by (rewrite <- L; revert E; clear; revert i y; induction x as [|b x IH]; intros [|i] y; cbn; try discriminate;
    [intros E; injection E as <-; reflexivity|destruct (set_nth x i v) as [z|] eqn:F; cbn; [|discriminate]; intros E; injection E as <-; cbn; f_equal; eauto]).
  rewrite new_cellof by auto. rewrite IH. destruct (b_add_inner h x v (h y :: db) es) as [[l db'] e]. reflexivity.
Qed.
Lemma inner_lengths v x es : length x = n -> forall db l db' e, b_add_inner h x v db es = (l, db', e) -> forall y, In y l -> length y = n.
Proof.
  intros L. induction es as [|[i a] es IH]; intros db l db' e; cbn [b_add_inner]; [intros E; injection E as <- <- <-; easy|].
  destruct (negb (Z.eqb a v)); [|apply IH]. destruct (set_nth x i v) as [y|] eqn:E; [|intros K; injection K as <- <- <-; easy].
  destruct (memZ (h y) db); [apply IH|]. destruct (b_add_inner h x v (h y :: db) es) as [[l1 db1] e1] eqn:E1. intros K. injection K as <- <- <-.
  assert (Ly : length y = n) by (rewrite <- L; revert E; clear; revert i y; induction x as [|b x IH]; intros [|i] y; cbn; try discriminate;
    [intros E; injection E as <-; reflexivity|destruct (set_nth x i v) as [z|] eqn:F; cbn; [|discriminate]; intros E; injection E as <-; cbn; f_equal; eauto]).
  intros z [<-|Hz]; [assumption|]. apply (IH _ _ _ _ E1 z Hz).
Qed.
Lemma outer_sim v xs fin : (forall x, In x xs -> length x = n) -> forall db,
  add_one_outer h v (cond_unitary v) db (map (cellof c0) xs) fin = lift (b_add_outer h v db xs fin).
Proof.
  induction xs as [|x xs IH]; intros HL db; cbn [map add_one_outer b_add_outer]; [reflexivity|].
  change (numbers (cellof c0 x)) with x. rewrite inner_sim by (apply HL; now left).
  destruct (b_add_inner h x v db (enumerate x)) as [[l db'] e]. destruct e; [reflexivity|].
  rewrite IH by (intros y Hy; apply HL; now right). unfold lift. cbn [items stop]. now rewrite map_app.
Qed.
Lemma outer_lengths v xs fin : (forall x, In x xs -> length x = n) -> forall db y, In y (items (b_add_outer h v db xs fin)) -> length y = n.
Proof.
  induction xs as [|x xs IH]; intros HL db y; cbn [b_add_outer]; [easy|].
  destruct (b_add_inner h x v db (enumerate x)) as [[l db'] e] eqn:E. pose proof (inner_lengths (HL x (or_introl eq_refl)) E) as K.
  destruct e; cbn [items]; [apply K|]. rewrite in_app_iff. intros [H|H]; [auto|]. apply (IH (fun z Hz => HL z (or_intror Hz)) db' y H).
Qed.
Lemma b_nodup_incl perms xs fin : forall iso y, In y (items (b_nodup_loop h perms iso xs fin)) -> In y xs.
Proof.
  induction xs as [|x xs IH]; intros iso y; cbn [b_nodup_loop]; [easy|].
  destruct (memZ (h x) iso); [intros H; right; eauto|]. destruct (b_update_isoset h iso x perms); cbn; [|tauto].
  intros [<-|H]; [now left|right; eauto].
Qed.
Lemma levels_sim o s v count : init_cell o = c0 -> sym_perm o = b_sym_perm s -> forall t,
  (forall x, In x (items t) -> length x = n) ->
  levels (fun gen => gen_2nodup_gen h o (add_one_outer h v (cond_unitary v) [] (items gen) (stop gen))) count (lift t) =
  map lift (b_levels (fun g => to_nodup_generator h s (add_one_speckle_generator h g v)) count t).
Proof.
  intros E0 E1. induction count as [|k IH]; intros t HL; cbn [levels b_levels map]; [reflexivity|].
  assert (E : gen_2nodup_gen h o (add_one_outer h v (cond_unitary v) [] (items (lift t)) (stop (lift t))) =
              lift (to_nodup_generator h s (add_one_speckle_generator h t v))).
  { unfold lift at 1 2. cbn [items stop]. rewrite outer_sim by assumption. unfold gen_2nodup_gen, gen_2nodup_gen_with, to_nodup_generator. cbn [lift items stop].
    rewrite E1. rewrite nodup_sim. reflexivity. }
  rewrite E, IH; [reflexivity|]. intros x Hx. unfold to_nodup_generator in Hx. apply b_nodup_incl in Hx. apply (outer_lengths HL Hx).
Qed.
End Sim.
