(** A cheaper check of finite permutation groups: by generators.  All indices come from
    certificates, so nothing is searched. *)
From Verif Require Import Base LBase SSym LSym SGeneralCell LPermDec.
Set Implicit Arguments.
Unset Strict Implicit.
Open Scope nat_scope.

Section Gen.
Context (n : nat) (T : list (list nat)) (gens : list nat).
Notation row k := (nth k T []).

(** each (r, p, g): row r = row p after row g, with p known before *)
Fixpoint wordsb (cert : list (nat * nat * nat)) (known : list nat) : bool :=
  match cert with
  | [] => true
  | (r, p, g) :: t => existsb (Nat.eqb p) known && existsb (Nat.eqb g) gens && nat_list_eqb (row r) (compb (row p) (row g)) && wordsb t (r :: known)
  end.
Definition generatedb (cert : list (nat * nat * nat)) : bool :=
  nat_list_eqb (row 0) (seq 0 n) && is_permb (length T) (0 :: map (fun x => fst (fst x)) cert) && wordsb cert [0].

Lemma words_ok (P : list nat -> Prop) : (forall p g, P p -> In g gens -> P (compb p (row g))) ->
  forall cert known, wordsb cert known = true -> (forall k, In k known -> P (row k)) ->
  forall k, In k known \/ In k (map (fun x => fst (fst x)) cert) -> P (row k).
Proof.
  intros HC. induction cert as [|[[r p] g] cert IH]; intros known W HK k I; cbn in W, I.
  - destruct I as [I|[]]. auto.
  - rewrite !andb_true_iff in W. destruct W as [[[W1 W2] W3] W4].
    apply existsb_exists in W1 as (p' & Ip & E). apply Nat.eqb_eq in E. subst p'.
    apply existsb_exists in W2 as (g' & Ig & E). apply Nat.eqb_eq in E. subst g'.
    apply nat_list_eqb_eq in W3. apply (IH _ W4).
    + intros j [<-|J]; [rewrite W3; auto|auto].
    + destruct I as [I|[I|I]]; [left; now right|left; now left|now right].
Qed.

(** what holds for the identity and is kept by the generators holds for all rows *)
Lemma generated_ind (P : list nat -> Prop) cert : generatedb cert = true -> P (seq 0 n) ->
  (forall p g, P p -> In g gens -> P (compb p (row g))) -> forall q, In q T -> P q.
Proof.
  unfold generatedb. rewrite !andb_true_iff. intros [[E0 EP] W] H0 HC q Iq. apply nat_list_eqb_eq in E0. apply is_permb_ok in EP.
  destruct (In_nth _ _ [] Iq) as (k & Lk & <-). apply (words_ok HC W).
  - intros j [<-|[]]. now rewrite E0.
  - assert (I : In k (0 :: map (fun x => fst (fst x)) cert)) by (apply (Permutation_in _ (Permutation_sym EP)), in_seq; lia).
    destruct I as [<-|I]; [left; now left|now right].
Qed.

Definition closedb (mult : list (list nat)) : bool :=
  Nat.eqb (length mult) (length T) &&
  forallb (fun pm => Nat.eqb (length (snd pm)) (length gens) &&
    forallb (fun gk => (snd gk <? length T) && nat_list_eqb (compb (fst pm) (row (fst gk))) (row (snd gk))) (combine gens (snd pm))) (combine T mult).
Definition invertedb (inv : list nat) : bool :=
  Nat.eqb (length inv) (length T) && forallb (fun pk => (snd pk <? length T) && inv_ofb n (fst pk) (row (snd pk))) (combine T inv).

Lemma in_combine_left A B (l : list A) (m : list B) x : length l = length m -> In x l -> exists y, In (x, y) (combine l m).
Proof.
  revert m. induction l as [|a l IH]; intros m E []; destruct m as [|b m]; try discriminate.
  - subst. exists b. now left.
  - injection E as E. destruct (IH m E H) as (y & I). exists y. now right.
Qed.

Lemma compb_assoc p q g : Forall (fun j => j < length q) g -> compb p (compb q g) = compb (compb p q) g.
Proof.
  intros F. unfold compb. rewrite map_map. apply map_ext_in. intros j I. rewrite Forall_forall in F.
  rewrite (nth_indep (map (fun j => nth j p 0) q) 0 (nth 0 p 0)) by (rewrite map_length; auto). symmetry. exact (map_nth (fun j => nth j p 0) q 0 j).
Qed.

Lemma generated_group cert mult inv : generatedb cert = true -> forallb (is_permb n) T = true -> 0 <? length T = true ->
  forallb (fun g => g <? length T) gens = true ->
  closedb mult = true -> invertedb inv = true -> perm_group n T.
Proof.
  intros GE PE NE GL CL IV.
  assert (HP : forall p, In p T -> Permutation p (seq 0 n)) by (intros p Hp; apply is_permb_ok; rewrite forallb_forall in PE; auto).
  assert (HG : forall g, In g gens -> In (row g) T).
  { intros g Ig. rewrite forallb_forall in GL. apply nth_In. apply Nat.ltb_lt, GL, Ig. }
  assert (C1 : forall p g, In p T -> In g gens -> In (compb p (row g)) T).
  { intros p g Hp Ig. unfold closedb in CL. rewrite andb_true_iff, forallb_forall in CL. destruct CL as [E CL]. apply Nat.eqb_eq in E.
    destruct (in_combine_left (eq_sym E) Hp) as (m & Im). specialize (CL _ Im). cbn [fst snd] in CL.
    rewrite andb_true_iff, forallb_forall in CL. destruct CL as [E2 CL]. apply Nat.eqb_eq in E2.
    destruct (in_combine_left (eq_sym E2) Ig) as (k & Ik). specialize (CL _ Ik). cbn [fst snd] in CL.
    rewrite andb_true_iff in CL. destruct CL as [L E3]. apply nat_list_eqb_eq in E3. rewrite E3. apply nth_In. now apply Nat.ltb_lt. }
  assert (C2 : forall q, In q T -> In q T /\ forall p, In p T -> In (compb p q) T).
  { apply (generated_ind GE).
    - split.
      + unfold generatedb in GE. rewrite !andb_true_iff in GE. destruct GE as [[E0 _] _]. apply nat_list_eqb_eq in E0. rewrite <- E0. apply nth_In. now apply Nat.ltb_lt.
      + intros p Hp. replace (compb p (seq 0 n)) with p; [exact Hp|]. unfold compb. rewrite <- (perm_length (HP p Hp)). symmetry. apply map_nth_seq.
    - intros q g [Hq IH] Ig. split; [auto|]. intros p Hp. rewrite compb_assoc; [apply C1; auto|].
      apply Forall_forall. intros j Ij. rewrite (perm_length (HP q Hq)). apply (Permutation_in _ (HP _ (HG g Ig))), in_seq in Ij. lia. }
  split; [exact HP|]. split.
  { unfold generatedb in GE. rewrite !andb_true_iff in GE. destruct GE as [[E0 _] _]. apply nat_list_eqb_eq in E0. rewrite <- E0. apply nth_In. now apply Nat.ltb_lt. }
  split.
  - intros p q Hp Hq. exists (compb p q). split; [apply (proj2 (C2 q Hq)), Hp|]. intros i j E. unfold compb. rewrite nth_error_map, E. cbn.
    symmetry. apply nth_error_nth'. rewrite (perm_length (HP p Hp)). apply (perm_lt (HP q Hq) E).
  - intros p Hp. unfold invertedb in IV. rewrite andb_true_iff, forallb_forall in IV. destruct IV as [E IV]. apply Nat.eqb_eq in E.
    destruct (in_combine_left (eq_sym E) Hp) as (k & Ik). specialize (IV _ Ik). cbn [fst snd] in IV. rewrite andb_true_iff in IV. destruct IV as [L IV].
    assert (Hr : In (row k) T) by (apply nth_In; now apply Nat.ltb_lt).
    exists (row k). split; [exact Hr|]. intros i j Eij. unfold inv_ofb in IV. rewrite forallb_forall in IV.
    assert (Hi : i < n) by (rewrite <- (perm_length (HP p Hp)); apply nth_error_Some; congruence).
    specialize (IV i). rewrite in_seq in IV. specialize (IV ltac:(lia)). apply Nat.eqb_eq in IV.
    rewrite (nth_error_nth p i 0 Eij) in IV. transitivity (Some (nth j (row k) n)); [|now rewrite IV]. apply nth_error_nth'.
    rewrite (perm_length (HP _ Hr)). apply (perm_lt (HP p Hp) Eij).
Qed.
End Gen.
