(** Strings: unique decomposition of concatenations, printed integers. *)
From Coq Require Import String Ascii DecimalString.
From Verif Require Import Base LBase MGeneralCell MRestrict SRestrict LRestrict MLegacy SLegacy.
Set Implicit Arguments.
Unset Strict Implicit.
Open Scope Z_scope.
Open Scope string_scope.

Section Span.
Variable P : ascii -> Prop.
Fixpoint all_ch (s : string) : Prop := match s with EmptyString => True | String c r => P c /\ all_ch r end.
Definition stops (s : string) : Prop := match s with EmptyString => True | String c _ => ~ P c end.
Lemma span_uniq s1 s2 r1 r2 : all_ch s1 -> all_ch s2 -> stops r1 -> stops r2 -> s1 ++ r1 = s2 ++ r2 -> s1 = s2 /\ r1 = r2.
Proof.
  revert s2. induction s1 as [|c s1 IH]; intros [|d s2] A1 A2 B1 B2 E; cbn in *.
  - auto.
  - subst r1. destruct A2 as [A2 _]. now destruct B1.
  - subst r2. destruct A1 as [A1 _]. now destruct B2.
  - injection E as -> E. destruct A1 as [_ A1], A2 as [_ A2]. destruct (IH s2 A1 A2 B1 B2 E) as [-> ->]. auto.
Qed.
Lemma all_ch_app s t : all_ch (s ++ t) <-> all_ch s /\ all_ch t.
Proof. induction s as [|c s IH]; cbn; [tauto|]. rewrite IH. tauto. Qed.
End Span.
Lemma all_ch_impl (P Q : ascii -> Prop) s : (forall c, P c -> Q c) -> all_ch P s -> all_ch Q s.
Proof. intros H. induction s as [|c s IH]; cbn; [auto|]. intros [A B]. auto. Qed.

Lemma append_cancel_l s t u : s ++ t = s ++ u -> t = u.
Proof. induction s as [|c s IH]; cbn; [auto|]. intros [= E]. auto. Qed.
Lemma append_cancel_r s t u : t ++ s = u ++ s -> t = u.
Proof.
  revert u. induction t as [|c t IH]; intros [|d u] E; cbn in E.
  - reflexivity.
  - exfalso. assert (L : String.length s = String.length (String d (u ++ s))) by (now rewrite <- E). cbn in L.
    clear E. assert (K : forall a b, (String.length b <= String.length (a ++ b))%nat) by (induction a as [|? a IHa]; intros b; cbn; [lia|]; specialize (IHa b); lia).
    specialize (K u s). lia.
  - exfalso. assert (L : String.length s = String.length (String c (t ++ s))) by (now rewrite E). cbn in L.
    clear E IH. assert (K : forall a b, (String.length b <= String.length (a ++ b))%nat) by (induction a as [|? a IHa]; intros b; cbn; [lia|]; specialize (IHa b); lia).
    specialize (K t s). lia.
  - injection E as -> E. now rewrite (IH u E).
Qed.

(** *** printed integers *)
Definition digit_ch (c : ascii) : Prop := In c digits10.
Lemma dec_digits n : all_ch digit_ch (dec n).
Proof. unfold dec. induction (Nat.to_uint n); cbn; unfold digit_ch; cbn; intuition. Qed.
Lemma dec_inj m n : dec m = dec n -> m = n.
Proof. intros E. apply Nat2Z.inj. now rewrite <- !int_dec, E. Qed.
Definition num_ch (c : ascii) : Prop := digit_ch c \/ c = "-"%char.
Lemma zdec_num z : all_ch num_ch (zdec z).
Proof.
  unfold zdec. destruct (z <? 0)%Z; cbn; [split; [now right|]|]; (eapply all_ch_impl; [|apply dec_digits]); unfold num_ch; auto.
Qed.
Lemma zdec_nonempty z : zdec z <> "".
Proof. unfold zdec. destruct (z <? 0)%Z; [discriminate|apply dec_nonempty]. Qed.
Lemma dec_not_minus n s : dec n <> String "-" s.
Proof.
  intros E. pose proof (dec_digits n) as D. rewrite E in D. destruct D as [D _]. unfold digit_ch in D. cbn in D. intuition discriminate.
Qed.
Lemma zdec_inj a b : zdec a = zdec b -> a = b.
Proof.
  unfold zdec. destruct (Z.ltb_spec a 0), (Z.ltb_spec b 0); intros E.
  - injection E as E. apply dec_inj in E. lia.
  - symmetry in E. now apply dec_not_minus in E.
  - now apply dec_not_minus in E.
  - apply dec_inj in E. lia.
Qed.

(** *** str(list(numbers)) *)
Definition no_comma (c : ascii) : Prop := c <> ","%char.
Lemma concat_comma_inj (a b : list string) : Forall (fun s => all_ch no_comma s /\ s <> "") a -> Forall (fun s => all_ch no_comma s /\ s <> "") b ->
  String.concat ", " a = String.concat ", " b -> a = b.
Proof.
  revert b. induction a as [|s a IH]; intros [|t b] FA FB E.
  - reflexivity.
  - inversion FB as [|? ? [B1 B2] _]; subst. exfalso. destruct b; cbn in E; [congruence|destruct t; [congruence|discriminate]].
  - inversion FA as [|? ? [B1 B2] _]; subst. exfalso. destruct a; cbn in E; [congruence|destruct s; [congruence|discriminate]].
  - inversion FA as [|? ? [A1 A2] FA']; inversion FB as [|? ? [B1 B2] FB']; subst.
    destruct a as [|s' a], b as [|t' b].
    + cbn in E. now subst.
    + change (String.concat ", " [s]) with s in E. change (String.concat ", " (t :: t' :: b)) with (t ++ ", " ++ String.concat ", " (t' :: b)) in E.
      rewrite <- (append_empty s) in E. apply (@span_uniq no_comma) in E; auto; [|exact I|cbn; unfold no_comma; intuition]. destruct E as [_ E]. discriminate.
    + change (String.concat ", " [t]) with t in E. change (String.concat ", " (s :: s' :: a)) with (s ++ ", " ++ String.concat ", " (s' :: a)) in E.
      rewrite <- (append_empty t) in E. apply (@span_uniq no_comma) in E; auto; [|cbn; unfold no_comma; intuition|exact I]. destruct E as [_ E]. discriminate.
    + change (String.concat ", " (t :: t' :: b)) with (t ++ ", " ++ String.concat ", " (t' :: b)) in E.
      change (String.concat ", " (s :: s' :: a)) with (s ++ ", " ++ String.concat ", " (s' :: a)) in E.
      apply (@span_uniq no_comma) in E; auto; [|cbn; unfold no_comma; intuition|cbn; unfold no_comma; intuition].
      destruct E as [-> E]. apply append_cancel_l in E. f_equal. now apply IH.
Qed.
Lemma map_inj A B (f : A -> B) (a b : list A) : (forall x y, f x = f y -> x = y) -> List.map f a = List.map f b -> a = b.
Proof. intros H. revert b. induction a as [|x a IH]; intros [|y b] E; cbn in E; try discriminate; [reflexivity|]. injection E as E1 E2. f_equal; auto. Qed.
Lemma np_repr_inj np2 a b : np_repr np2 a = np_repr np2 b -> a = b.
Proof. destruct np2; unfold np_repr; intros E; [|now apply zdec_inj]. apply append_cancel_l in E. apply append_cancel_r in E. now apply zdec_inj. Qed.
Lemma num_no_comma c : num_ch c -> no_comma c.
Proof. unfold num_ch, no_comma, digit_ch. cbn. intuition; subst; discriminate. Qed.
Lemma np_repr_tok np2 z : all_ch no_comma (np_repr np2 z) /\ np_repr np2 z <> "".
Proof.
  assert (H : all_ch no_comma (zdec z)) by (eapply all_ch_impl; [exact num_no_comma|apply zdec_num]).
  destruct np2; unfold np_repr.
  - split; [|discriminate]. apply all_ch_app. split; [cbn; unfold no_comma; repeat split; discriminate|]. apply all_ch_app. split; [assumption|]. cbn; unfold no_comma; repeat split; discriminate.
  - split; [assumption|apply zdec_nonempty].
Qed.
Lemma seq_identifier_inj np2 a b : seq_identifier np2 a = seq_identifier np2 b -> a = b.
Proof.
  unfold seq_identifier. intros E. apply append_cancel_l in E. apply append_cancel_r in E. apply concat_comma_inj in E.
  - revert E. apply map_inj. apply np_repr_inj.
  - apply Forall_map, Forall_forall. intros z _. apply np_repr_tok.
  - apply Forall_map, Forall_forall. intros z _. apply np_repr_tok.
Qed.

(** *** str(array) *)
Definition render (l : list (string * string)) : string := String.concat "" (List.map (fun iw => fst iw ++ snd iw) l).
Lemma concat_nil_cons s l : String.concat "" (s :: l) = s ++ String.concat "" l.
Proof. destruct l; cbn; [now rewrite append_empty|reflexivity]. Qed.
Definition nonwhite (c : ascii) : Prop := ~ white c.
Definition word (w : string) : Prop := all_ch nonwhite w /\ w <> "".
Lemma all_white_ch s : all_white s <-> all_ch white s.
Proof. induction s as [|c s IH]; cbn; [tauto|]. rewrite IH. tauto. Qed.
Lemma white_dec c : white c \/ ~ white c.
Proof. unfold white. destruct (ascii_dec c " "%char), (ascii_dec c "010"%char); tauto. Qed.
Lemma word_stops w r : word w -> stops white (w ++ r).
Proof. intros [A B]. destruct w as [|c w]; [congruence|]. cbn in *. unfold nonwhite in A. tauto. Qed.
Lemma render_stops l : Forall (fun pw => all_white (fst pw) /\ fst pw <> "") l -> stops nonwhite (render l).
Proof.
  intros H. destruct H as [|[p w] l [A B] _]; [exact I|]. unfold render. cbn [List.map]. rewrite concat_nil_cons. cbn in *.
  destruct p as [|c p]; [congruence|]. cbn in *. unfold nonwhite. tauto.
Qed.
Lemma render_words a b : 
  Forall (fun pw => all_white (fst pw) /\ word (snd pw)) a -> Forall (fun pw => all_white (fst pw) /\ word (snd pw)) b ->
  Forall (fun pw => fst pw <> "") (tl a) -> Forall (fun pw => fst pw <> "") (tl b) ->
  render a = render b -> List.map snd a = List.map snd b.
Proof.
  revert b. induction a as [|[p w] a IH]; intros [|[q v] b] FA FB TA TB E.
  - reflexivity.
  - inversion FB as [|? ? [_ [_ B]] _]; subst. exfalso. unfold render in E. cbn [List.map] in E. rewrite concat_nil_cons in E. cbn in E, B.
    destruct q; [destruct v; [congruence|discriminate]|discriminate].
  - inversion FA as [|? ? [_ [_ B]] _]; subst. exfalso. unfold render in E. cbn [List.map] in E. rewrite concat_nil_cons in E. cbn in E, B.
    destruct p; [destruct w; [congruence|discriminate]|discriminate].
  - inversion FA as [|? ? [A1 A2] FA']; inversion FB as [|? ? [B1 B2] FB']; subst. cbn [fst snd tl] in *.
    unfold render in E. cbn [List.map fst snd] in E. rewrite !concat_nil_cons, <- !append_assoc in E.
    apply (@span_uniq white) in E; [|now apply all_white_ch|now apply all_white_ch|now apply word_stops|now apply word_stops].
    destruct E as [_ E].
    apply (@span_uniq nonwhite) in E; [|apply A2|apply B2| | ].
    + destruct E as [-> E]. cbn [List.map snd]. f_equal. apply IH; auto; [destruct a; [constructor|now inversion TA]|destruct b; [constructor|now inversion TB]].
    + apply render_stops. clear - FA' TA. induction FA' as [|[p w] a [X Y] F IH]; constructor; inversion TA; subst; auto.
    + apply render_stops. clear - FB' TB. induction FB' as [|[p w] a [X Y] F IH]; constructor; inversion TB; subst; auto.
Qed.
Lemma shown_words l : Forall word (shown l).
Proof.
  assert (H : forall l, Forall word (List.map zdec l)).
  { intros m. apply Forall_map, Forall_forall. intros z _. split; [|apply zdec_nonempty]. eapply all_ch_impl; [|apply zdec_num].
    intros c. unfold num_ch, nonwhite, white, digit_ch. cbn. intuition; subst; discriminate. }
  unfold shown. destruct (1000 <? List.length l)%nat; [|apply H]. apply Forall_app. split; [apply H|]. apply Forall_app. split; [|apply H].
  repeat constructor; try discriminate; unfold nonwhite, white; intuition discriminate.
Qed.
Lemma np_str_shown pad a b : layout pad -> (np_str pad a = np_str pad b <-> shown a = shown b).
Proof.
  intros LP. unfold np_str. split; [|now intros ->]. intros E. apply append_cancel_l in E. apply append_cancel_r in E.
  set (f := fun l : list string => List.map (fun iw : nat * string => (pad l (fst iw), snd iw)) (enumerate l)).
  assert (R : forall l, String.concat "" (List.map (fun iw => (pad l (fst iw) ++ snd iw)%string) (enumerate l)) = render (f l)).
  { intros l. unfold render, f. rewrite map_map. reflexivity. }
  rewrite !R in E.
  assert (S : forall l : list string, List.map snd (f l) = l).
  { intros l. unfold f. rewrite map_map. cbn. unfold enumerate. apply map_snd_combine; unfold range. now rewrite seq_length. }
  assert (FW : forall l, Forall word l -> Forall (fun pw => all_white (fst pw) /\ word (snd pw)) (f l)).
  { intros l H. apply Forall_forall. intros pw Hp. split.
    - unfold f in Hp. apply in_map_iff in Hp. destruct Hp as [[i w] [<- _]]. apply LP.
    - rewrite Forall_forall in H. apply H. rewrite <- (S l). now apply in_map. }
  assert (TL : forall l, Forall (fun pw => fst pw <> "") (tl (f l))).
  { intros l. unfold f, enumerate, range. destruct l as [|w l]; [constructor|]. cbn. apply Forall_map, Forall_forall. intros [i v] H. cbn.
    apply in_combine_l, in_seq in H. apply LP. lia. }
  apply render_words in E; auto using shown_words. now rewrite !S in E.
Qed.
Lemma shown_short a b : (List.length a <= 1000)%nat -> (List.length b <= 1000)%nat -> (shown a = shown b <-> a = b).
Proof.
  intros A B. unfold shown. destruct (Nat.ltb_spec 1000 (List.length a)), (Nat.ltb_spec 1000 (List.length b)); try lia.
  split; [|now intros ->]. apply map_inj. exact zdec_inj.
Qed.
Lemma nth_error_firstn_lt' A (l : list A) n i : (i < n)%nat -> nth_error (firstn n l) i = nth_error l i.
Proof. revert n i. induction l as [|x l IH]; intros [|n] [|i] H; cbn; try lia; auto. apply IH. lia. Qed.
Lemma nth_error_skipn' A (l : list A) n i : nth_error (skipn n l) i = nth_error l (n + i).
Proof. revert l. induction n as [|n IH]; intros [|x l]; cbn; auto. destruct i; reflexivity. Qed.
Lemma app_inj_len' A (a b c d : list A) : List.length a = List.length c -> (a ++ b)%list = (c ++ d)%list -> a = c /\ b = d.
Proof. revert c. induction a as [|x a IH]; intros [|y c] L E; cbn in *; try discriminate; [auto|]. injection E as -> E. destruct (IH c) as [-> ->]; auto. Qed.
Lemma shown_long a b : List.length a = List.length b -> (1000 < List.length a)%nat ->
  (shown a = shown b <-> forall i, (i < 3 \/ List.length a - 3 <= i)%nat -> nth_error a i = nth_error b i).
Proof.
  intros L A. unfold shown. rewrite <- L. destruct (Nat.ltb_spec 1000 (List.length a)) as [_|]; [|lia].
  split.
  - intros E. apply app_inj_len' in E; [|now rewrite !map_length, !firstn_length, L].
    destruct E as [E1 E2]. injection E2 as E2. apply map_inj in E1; [|exact zdec_inj]. apply map_inj in E2; [|exact zdec_inj].
    intros i [H|H].
    + rewrite <- (nth_error_firstn_lt' a H), <- (nth_error_firstn_lt' b H). now rewrite E1.
    + replace i with ((List.length a - 3) + (i - (List.length a - 3)))%nat by lia. rewrite <- !nth_error_skipn'. now rewrite E2.
  - intros H. f_equal; [f_equal; apply list_ext; intros i|do 2 f_equal; apply list_ext; intros i].
    + destruct (Nat.lt_ge_cases i 3) as [K|K]; [rewrite !nth_error_firstn_lt' by assumption; auto|].
      rewrite (proj2 (nth_error_None _ _)) by (rewrite firstn_length; lia). symmetry. apply nth_error_None. rewrite firstn_length. lia.
    + rewrite !nth_error_skipn'. apply H. right. lia.
Qed.
