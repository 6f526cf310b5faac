(** A formula can be read back. *)
From Coq Require Import String Ascii DecimalString Sorted.
From Verif Require Import Base LBase BaseQ SElement MElement LElement MText LText MGeneralCell SGeneralCell LGeneralCell SIO MIO SCli MCli LCli2 LCli7 LListing.
Set Implicit Arguments.
Unset Strict Implicit.
Open Scope list_scope.
Open Scope nat_scope.

Definition starts_plain (s : string) : Prop := match s with String c _ => is_digit_c c = false | EmptyString => True end.
Definition plain_c (c : ascii) : bool := negb (is_digit_c c).

Lemma digits_split d : forall d' r r', allc is_digit_c d = true -> allc is_digit_c d' = true -> starts_plain r -> starts_plain r' ->
  (d ++ r)%string = (d' ++ r')%string -> d = d' /\ r = r'.
Proof.
  induction d as [|c d IH]; intros [|c' d'] r r' A A' S S' E; cbn in *.
  - auto.
  - subst r. cbn in S. apply andb_true_iff in A' as [A' _]. congruence.
  - subst r'. cbn in S'. apply andb_true_iff in A as [A _]. congruence.
  - injection E as -> E. apply andb_true_iff in A as [_ A]. apply andb_true_iff in A' as [_ A']. destruct (IH d' r r' A A' S S' E) as [-> ->]. auto.
Qed.
Lemma plain_split a : forall a' r r', allc plain_c a = true -> allc plain_c a' = true ->
  match r with String c _ => is_digit_c c = true | EmptyString => False end -> match r' with String c _ => is_digit_c c = true | EmptyString => False end ->
  (a ++ r)%string = (a' ++ r')%string -> a = a' /\ r = r'.
Proof.
  induction a as [|c a IH]; intros [|c' a'] r r' A A' S S' E; cbn in *.
  - auto.
  - subst r. cbn in S. apply andb_true_iff in A' as [A' _]. unfold plain_c in A'. rewrite S in A'. discriminate.
  - subst r'. cbn in S'. apply andb_true_iff in A as [A _]. unfold plain_c in A. rewrite S' in A. discriminate.
  - injection E as -> E. apply andb_true_iff in A as [_ A]. apply andb_true_iff in A' as [_ A']. destruct (IH a' r r' A A' S S' E) as [-> ->]. auto.
Qed.
Lemma element_plain z s : is_element z s -> allc plain_c s = true /\ s <> ""%string.
Proof.
  intros E. apply spec_pairs_iff in E. revert E.
  assert (K : forallb (fun p : Z * string => allc plain_c (snd p) && negb (String.eqb (snd p) "")) spec_pairs = true) by (vm_compute; reflexivity).
  rewrite forallb_forall in K. intros I. apply K in I. cbn [snd] in I. apply andb_true_iff in I as [I J]. split; [exact I|].
  intros ->. discriminate.
Qed.
Definition count_text (n : nat) : string := NilEmpty.string_of_uint (Nat.to_uint n).
Lemma count_text_inj n m : count_text n = count_text m -> n = m.
Proof. intros E. apply Nat2Z.inj. rewrite <- (nat_text_val n), <- (nat_text_val m). unfold count_text in E. now rewrite E. Qed.
Lemma count_text_starts n : n <> 0 -> exists c r, count_text n = String c r /\ is_digit_c c = true.
Proof.
  intros N. pose proof (uint_string_digits (Nat.to_uint n)) as A. fold (count_text n) in A. destruct (count_text n) as [|c r] eqn:E.
  - exfalso. apply N. apply Nat2Z.inj. rewrite <- (nat_text_val n). fold (count_text n). rewrite E. reflexivity.
  - cbn in A. apply andb_true_iff in A as [A _]. eauto.
Qed.

Definition part (cnt : Z -> nat) (z : Z) (p : string) : Prop := exists sym, is_element z sym /\ p = String.append sym (count_text (cnt z)).
Lemma concat_cons p ps : String.concat "" (p :: ps) = String.append p (String.concat "" ps).
Proof. destruct ps; cbn [String.concat]; [now rewrite app_nil_s|reflexivity]. Qed.
Lemma parts_plain cnt zs ps : Forall2 (part cnt) zs ps -> starts_plain (String.concat "" ps).
Proof.
  intros F. destruct F as [|z p zs ps (sym & E & ->) F]; [exact I|]. rewrite concat_cons.
  destruct (element_plain E) as [A N]. destruct sym as [|c sym]; [contradiction|]. cbn in *. apply andb_true_iff in A as [A _].
  unfold plain_c in A. now apply negb_true_iff in A.
Qed.
Lemma parts_read cnt cnt' zs : forall zs' ps ps', (forall z, In z zs -> cnt z <> 0) -> (forall z, In z zs' -> cnt' z <> 0) ->
  Forall2 (part cnt) zs ps -> Forall2 (part cnt') zs' ps' -> String.concat "" ps = String.concat "" ps' ->
  zs = zs' /\ forall z, In z zs -> cnt z = cnt' z.
Proof.
  induction zs as [|z zs IH]; intros zs' ps ps' N N' F F' E.
  - inversion F; subst. inversion F' as [|z' p' zs'' ps'' (sym & El & ->) F'']; subst; [split; [reflexivity|intros z []]|].
    exfalso. rewrite concat_cons in E. destruct (element_plain El) as [_ NE]. destruct sym; [contradiction|]. discriminate.
  - inversion F as [|? p ? ps0 (sym & El & ->) F0]; subst. inversion F' as [|z' p' zs'' ps'' (sym' & El' & ->) F'']; subst.
    + exfalso. rewrite concat_cons in E. destruct (element_plain El) as [_ NE]. destruct sym; [contradiction|]. discriminate.
    + rewrite !concat_cons, !app_assoc_s in E.
      destruct (count_text_starts (N z (or_introl eq_refl))) as (c & r & E1 & D1). destruct (count_text_starts (N' z' (or_introl eq_refl))) as (c' & r' & E1' & D1').
      destruct (@plain_split sym sym' (count_text (cnt z) ++ String.concat "" ps0)%string (count_text (cnt' z') ++ String.concat "" ps'')%string
        (proj1 (element_plain El)) (proj1 (element_plain El'))) as [-> E2]; [| |exact E|].
      * rewrite E1. exact D1.
      * rewrite E1'. exact D1'.
      * destruct (digits_split (uint_string_digits _) (uint_string_digits _) (parts_plain F0) (parts_plain F'') E2) as [E3 E4].
        apply count_text_inj in E3. pose proof (element_inj El El') as <-.
        destruct (IH zs'' ps0 ps'') as [-> H]; auto; [intros w Hw; apply N; now right|intros w Hw; apply N'; now right|].
        split; [reflexivity|]. intros w [<-|Hw]; auto.
Qed.

Lemma formula_counts nums nums' s : formula nums s -> formula nums' s -> forall z, z <> 0%Z -> count_occ Z.eq_dec nums z = count_occ Z.eq_dec nums' z.
Proof.
  intros (zs & ps & _ & H & F & ->) (zs' & ps' & _ & H' & F' & E) z NZ.
  assert (PN : forall l ls, (forall z, In z ls <-> In z l /\ z <> 0%Z) -> forall z, In z ls -> count_occ Z.eq_dec l z <> 0).
  { intros l ls K w I. apply K in I as [I _]. apply (count_occ_In Z.eq_dec) in I. lia. }
  destruct (@parts_read (count_occ Z.eq_dec nums) (count_occ Z.eq_dec nums') zs zs' ps ps' (PN _ _ H) (PN _ _ H') F F' E) as [<- K].
  destruct (in_dec Z.eq_dec z zs) as [I|I]; [now apply K|].
  assert (J : ~ In z nums) by (intros J; apply I, H; auto). assert (J' : ~ In z nums') by (intros J'; apply I, H'; auto).
  apply (count_occ_not_In Z.eq_dec) in J, J'. congruence.
Qed.
Lemma formula_back nums nums' s : (forall z, z <> 0%Z -> count_occ Z.eq_dec nums z = count_occ Z.eq_dec nums' z) -> formula nums s -> formula nums' s.
Proof.
  intros C (zs & ps & S & H & F & ->).
  assert (K : forall z, In z zs <-> In z nums' /\ z <> 0%Z).
  { intros z. rewrite H. split; intros [I N]; (split; [|exact N]); apply (count_occ_In Z.eq_dec); apply (count_occ_In Z.eq_dec) in I; rewrite ?(C z N) in *; rewrite <- ?(C z N) in *; lia. }
  exists zs, ps. split; [exact S|]. split; [exact K|]. split; [|reflexivity].
  clear S. assert (NZ : forall z, In z zs -> z <> 0%Z) by (intros z I; now apply H in I). clear H K.
  induction F as [|z p zs ps (sym & E & ->) F IH]; constructor.
  - exists sym. split; [exact E|]. now rewrite (C z (NZ z (or_introl eq_refl))).
  - apply IH. intros w I. apply NZ. now right.
Qed.

Lemma under_app a b s t : String.length s = String.length t -> forall x, (a ++ "_" ++ s ++ x)%string = (b ++ "_" ++ t ++ x)%string -> a = b /\ s = t.
Proof.
  intros L x E.
  assert (LA : String.length a = String.length b).
  { apply (f_equal String.length) in E. rewrite !length_app_s in E. cbn [String.length] in E. lia. }
  destruct (app_inj_len LA E) as [-> E2]. split; [reflexivity|]. injection E2 as E2. exact (proj1 (app_inj_len L E2)).
Qed.
