(** Lemmas about [Base]. *)
From Verif Require Import Base.
Set Implicit Arguments.

Lemma mapM_ok_forall2 A B (f : A -> res B) l ys :
  mapM f l = Ok ys <-> Forall2 (fun x y => f x = Ok y) l ys.
Proof.
  revert ys; induction l as [|x l IH]; intros ys; cbn [mapM].
  - split; intros H; [injection H as <-; constructor | inversion H; reflexivity].
  - split.
    + unfold bind. destruct (f x) as [y|e] eqn:Hf; [|discriminate].
      destruct (mapM f l) as [zs|e] eqn:Hm; [|discriminate].
      intros H; injection H as <-. constructor; [assumption|]. now apply IH.
    + intros H; inversion H as [|? y ? zs Hx Ht]; subst.
      rewrite Hx; cbn. apply IH in Ht. rewrite Ht. reflexivity.
Qed.

Lemma mapM_ok_map A B (f : A -> res B) (g : A -> B) l :
  (forall x, In x l -> f x = Ok (g x)) -> mapM f l = Ok (map g l).
Proof.
  induction l as [|x l IH]; intros H; cbn; [reflexivity|].
  rewrite H by (now left). cbn. rewrite IH by (intros; apply H; now right). reflexivity.
Qed.

Lemma mapM_length A B (f : A -> res B) l ys : mapM f l = Ok ys -> length ys = length l.
Proof.
  intros H. apply mapM_ok_forall2 in H. induction H; cbn; congruence.
Qed.

Lemma gen_map_ok A B (f : A -> res B) (g : A -> B) l :
  (forall x, In x l -> f x = Ok (g x)) -> gen_map f l = mkTrace (map g l) None.
Proof.
  induction l as [|x l IH]; intros H; cbn; [reflexivity|].
  rewrite H by (now left). rewrite IH by (intros; apply H; now right). reflexivity.
Qed.

Lemma get_nth_ok A (l : list A) i x : get_nth l i = Ok x <-> nth_error l i = Some x.
Proof. unfold get_nth. destruct (nth_error l i); split; congruence. Qed.

Lemma get_nth_nth A (l : list A) i d : i < length l -> get_nth l i = Ok (nth i l d).
Proof. intros H. apply get_nth_ok. now apply nth_error_nth'. Qed.

Lemma set_nth_ok A (l : list A) i v : i < length l -> set_nth l i v = Ok (upd l i v).
Proof.
  revert i; induction l as [|x l IH]; intros [|i] H; cbn in *; try lia; [reflexivity|].
  rewrite IH by lia. reflexivity.
Qed.

Lemma set_nth_err A (l : list A) i v : length l <= i -> set_nth l i v = Raise IndexError.
Proof.
  revert i; induction l as [|x l IH]; intros [|i] H; cbn in *; try lia; try reflexivity.
  rewrite IH by lia. reflexivity.
Qed.

Lemma upd_length A (l : list A) i v : length (upd l i v) = length l.
Proof. revert i; induction l as [|x l IH]; intros [|i]; cbn; auto. Qed.

Lemma nth_error_upd A (l : list A) i j v :
  nth_error (upd l i v) j =
  if Nat.eqb i j then (if Nat.ltb i (length l) then Some v else None) else nth_error l j.
Proof.
  revert i j; induction l as [|x l IH]; intros [|i] [|j]; cbn; try reflexivity.
  - destruct (Nat.eqb i j); reflexivity.
  - rewrite IH. reflexivity.
Qed.

Lemma nth_upd A (l : list A) i j v d : i < length l ->
  nth j (upd l i v) d = if Nat.eqb i j then v else nth j l d.
Proof.
  revert i j; induction l as [|x l IH]; intros [|i] [|j] H; cbn in *; try lia; try reflexivity.
  apply IH. lia.
Qed.

Lemma take_idx_ok A (x : list A) p d :
  (forall i, In i p -> i < length x) -> take_idx x p = Ok (map (fun i => nth i x d) p).
Proof.
  intros H. apply mapM_ok_map. intros i Hi. apply get_nth_nth. auto.
Qed.

Lemma take_idx_inv A (x : list A) p y :
  take_idx x p = Ok y -> forall i, In i p -> i < length x.
Proof.
  intros H i Hi. apply mapM_ok_forall2 in H.
  induction H as [|a b p y Ha H IH]; [easy|].
  destruct Hi as [<-|Hi]; [|auto].
  apply get_nth_ok in Ha. apply nth_error_Some. congruence.
Qed.

Lemma memZ_In z l : memZ z l = true <-> In z l.
Proof.
  unfold memZ. rewrite existsb_exists. split.
  - intros [y [Hy E]]. apply Z.eqb_eq in E. congruence.
  - intros H. exists z. split; [assumption | apply Z.eqb_refl].
Qed.

Lemma memZ_false z l : memZ z l = false <-> ~ In z l.
Proof. rewrite <- memZ_In. destruct (memZ z l); split; congruence. Qed.

Lemma norm_index_lt n i j : norm_index n i = Some j -> j < n.
Proof.
  unfold norm_index. destruct (Z.leb_spec 0 i).
  - destruct (Z.ltb_spec i (Z.of_nat n)); [|discriminate]. intros E; injection E as <-. lia.
  - destruct (Z.leb_spec 0 (i + Z.of_nat n)); [|discriminate]. intros E; injection E as <-. lia.
Qed.

Lemma list_ext A (l1 l2 : list A) :
  (forall i, nth_error l1 i = nth_error l2 i) -> l1 = l2.
Proof.
  revert l2; induction l1 as [|x l1 IH]; intros [|y l2] H.
  - reflexivity.
  - specialize (H 0); discriminate.
  - specialize (H 0); discriminate.
  - f_equal; [specialize (H 0); cbn in H; congruence|]. apply IH. intros i. apply (H (S i)).
Qed.

Lemma list_ext_nth A (l1 l2 : list A) d :
  length l1 = length l2 -> (forall i, i < length l1 -> nth i l1 d = nth i l2 d) -> l1 = l2.
Proof. intros. apply (nth_ext l1 l2 d d); auto. Qed.

Lemma nth_error_enumerate A (l : list A) i :
  nth_error (enumerate l) i = match nth_error l i with Some x => Some (i, x) | None => None end.
Proof.
  unfold enumerate, range.
  enough (G : forall s, nth_error (combine (seq s (length l)) l) i =
     match nth_error l i with Some x => Some (s + i, x) | None => None end) by apply G.
  revert i; induction l as [|x l IH]; intros [|i] s; cbn; try reflexivity.
  - now rewrite Nat.add_0_r.
  - rewrite IH. destruct (nth_error l i); [|reflexivity]. do 2 f_equal. lia.
Qed.

Lemma enumerate_length A (l : list A) : length (enumerate l) = length l.
Proof. unfold enumerate, range. rewrite combine_length, seq_length. lia. Qed.

Lemma In_enumerate A (l : list A) i x : In (i, x) (enumerate l) <-> nth_error l i = Some x.
Proof.
  split.
  - intros H. apply In_nth_error in H. destruct H as [k Hk].
    rewrite nth_error_enumerate in Hk. destruct (nth_error l k) eqn:E; [|discriminate].
    congruence.
  - intros H. apply (nth_error_In _ i). rewrite nth_error_enumerate, H. reflexivity.
Qed.

Lemma map_fst_combine A B (a : list A) (b : list B) : length a = length b -> map fst (combine a b) = a.
Proof. revert b; induction a as [|x a IH]; intros [|y b] L; cbn in *; try discriminate; [reflexivity|]. now rewrite IH by lia. Qed.

Lemma map_snd_combine A B (a : list A) (b : list B) : length a = length b -> map snd (combine a b) = b.
Proof. revert b; induction a as [|x a IH]; intros [|y b] L; cbn in *; try discriminate; [reflexivity|]. now rewrite IH by lia. Qed.

Lemma map_nth_seq A (l : list A) d : map (fun i => nth i l d) (seq 0 (length l)) = l.
Proof.
  apply (list_ext_nth _ _ d).
  - now rewrite map_length, seq_length.
  - intros i Hi. rewrite map_length, seq_length in Hi.
    rewrite nth_indep with (d' := nth 0 l d) by (now rewrite map_length, seq_length).
    rewrite map_nth with (f := fun i => nth i l d) (d := 0%nat). now rewrite seq_nth by lia.
Qed.

Lemma Forall2_len A B (R : A -> B -> Prop) l l' : Forall2 R l l' -> length l = length l'.
Proof. induction 1; cbn; congruence. Qed.

Lemma Forall2_imp A B (R S : A -> B -> Prop) l l' : (forall x y, R x y -> S x y) -> Forall2 R l l' -> Forall2 S l l'.
Proof. intros H. induction 1; constructor; auto. Qed.
