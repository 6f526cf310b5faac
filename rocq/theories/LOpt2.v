(** The parameters read from a line. *)
From Coq Require Import String Ascii.
From Verif Require Import Base BaseQ LBase MText MOpt SOpt LOpt.
Set Implicit Arguments.
Unset Strict Implicit.
Open Scope string_scope.
Open Scope list_scope.
Notation length := List.length.

Lemma stored_snoc l e d : stored (l ++ [e]) d = match e with Given x vs => if String.eqb x d then Some vs else stored l d | _ => stored l d end.
Proof. unfold stored. rewrite fold_left_app. now destruct e. Qed.
Lemma flagged_snoc l e d : flagged (l ++ [e]) d = match e with Flag x b => if String.eqb x d then Some b else flagged l d | _ => flagged l d end.
Proof. unfold flagged. rewrite fold_left_app. now destruct e. Qed.

Lemma stored_spec evs d : match stored evs d with None => unsaid evs d | Some vs => last_said evs d vs end.
Proof.
  induction evs as [|e l IH] using rev_ind; [intros vs []|]. rewrite stored_snoc.
  assert (K : (forall vs, e <> Given d vs) -> match stored l d with None => unsaid (l ++ [e]) d | Some vs => last_said (l ++ [e]) d vs end).
  { intros N. destruct (stored l d) as [vs|].
    - destruct IH as (l1 & l2 & -> & U). exists l1, (l2 ++ [e]). split; [now rewrite <- app_assoc|]. intros ws I. apply in_app_or in I as [I|[I|[]]]; [now apply (U ws)|now apply (N ws)].
    - intros vs I. apply in_app_or in I as [I|[I|[]]]; [now apply (IH vs)|now apply (N vs)]. }
  destruct e as [x vs|x b|s]; [|apply K; discriminate|apply K; discriminate]. destruct (String.eqb_spec x d) as [->|N].
  - exists l, []. split; auto. intros ws [].
  - apply K. congruence.
Qed.
Lemma flagged_spec evs d : match flagged evs d with None => unset evs d | Some b => last_set evs d b end.
Proof.
  induction evs as [|e l IH] using rev_ind; [intros vs []|]. rewrite flagged_snoc.
  assert (K : (forall vs, e <> Flag d vs) -> match flagged l d with None => unset (l ++ [e]) d | Some vs => last_set (l ++ [e]) d vs end).
  { intros N. destruct (flagged l d) as [vs|].
    - destruct IH as (l1 & l2 & -> & U). exists l1, (l2 ++ [e]). split; [now rewrite <- app_assoc|]. intros ws I. apply in_app_or in I as [I|[I|[]]]; [now apply (U ws)|now apply (N ws)].
    - intros vs I. apply in_app_or in I as [I|[I|[]]]; [now apply (IH vs)|now apply (N vs)]. }
  destruct e as [x vs|x b|s]; [apply K; discriminate| |apply K; discriminate]. destruct (String.eqb_spec x d) as [->|N].
  - exists l, []. split; auto. intros ws [].
  - apply K. congruence.
Qed.
Lemma unsaid_stored evs d : unsaid evs d -> stored evs d = None.
Proof.
  pose proof (stored_spec evs d) as S. destruct (stored evs d) as [vs|]; auto. intros U. destruct S as (l1 & l2 & -> & _). exfalso. apply (U vs). apply in_or_app. right. now left.
Qed.
Lemma unset_flagged evs d : unset evs d -> flagged evs d = None.
Proof.
  pose proof (flagged_spec evs d) as S. destruct (flagged evs d) as [vs|]; auto. intros U. destruct S as (l1 & l2 & -> & _). exfalso. apply (U vs). apply in_or_app. right. now left.
Qed.
Lemma stored_keep l d : forall a, unsaid l d -> fold_left (fun a e => match e with Given x vs => if String.eqb x d then Some vs else a | _ => a end) l a = a.
Proof.
  induction l as [|e l IH]; intros a U; [reflexivity|]. cbn. assert (U' : unsaid l d) by (intros vs I; apply (U vs); now right).
  destruct e as [x vs|x b|s]; auto. destruct (String.eqb_spec x d) as [->|N]; auto. exfalso. apply (U vs). now left.
Qed.
Lemma flagged_keep l d : forall a, unset l d -> fold_left (fun a e => match e with Flag x b => if String.eqb x d then Some b else a | _ => a end) l a = a.
Proof.
  induction l as [|e l IH]; intros a U; [reflexivity|]. cbn. assert (U' : unset l d) by (intros vs I; apply (U vs); now right).
  destruct e as [x vs|x b|s]; auto. destruct (String.eqb_spec x d) as [->|N]; auto. exfalso. apply (U b). now left.
Qed.
Lemma last_stored evs d vs : last_said evs d vs -> stored evs d = Some vs.
Proof. intros (l1 & l2 & -> & U). unfold stored. rewrite fold_left_app. cbn. rewrite String.eqb_refl. now apply stored_keep. Qed.
Lemma last_flagged evs d b : last_set evs d b -> flagged evs d = Some b.
Proof. intros (l1 & l2 & -> & U). unfold flagged. rewrite fold_left_app. cbn. rewrite String.eqb_refl. now apply flagged_keep. Qed.

Lemma stored_some evs d vs : stored evs d = Some vs <-> last_said evs d vs.
Proof. split; [|apply last_stored]. intros S. pose proof (stored_spec evs d) as H. now rewrite S in H. Qed.
Lemma stored_none evs d : stored evs d = None <-> unsaid evs d.
Proof. split; [|apply unsaid_stored]. intros S. pose proof (stored_spec evs d) as H. now rewrite S in H. Qed.
Lemma flagged_none evs d : flagged evs d = None <-> unset evs d.
Proof. split; [|apply unset_flagged]. intros S. pose proof (flagged_spec evs d) as H. now rewrite S in H. Qed.

(** conversions *)
Lemma str_iff v x : as_str v = Some x <-> text v x.
Proof. unfold as_str, text. split; [now intros [= ->]|now intros ->]. Qed.
Lemma int_iff v x : as_int v = Some x <-> whole v x.
Proof. unfold as_int, whole. destruct (parse_int v); split; congruence. Qed.
Lemma float_iff v x : as_float v = Some x <-> number v x.
Proof. unfold as_float, number. destruct (parse_float v); split; congruence. Qed.
Lemma choice_iff l v x : as_choice l v = Some x <-> among l v x.
Proof.
  unfold as_choice, among. rewrite <- (find_in_names v l). destruct (existsb (String.eqb v) l); split; try discriminate.
  - intros [= ->]. auto.
  - intros (-> & _). auto.
  - intros (_ & H). discriminate.
Qed.

Section Read.
Variables (A : Type) (f : string -> option A) (R : string -> A -> Prop).
Hypothesis FR : forall v x, f v = Some x <-> R v x.

Lemma one_iff evs d dflt x : one evs d f dflt = Some x <-> single evs d R dflt x.
Proof.
  unfold one, single. split.
  - destruct (stored evs d) as [[|v [|]]|] eqn:S; try discriminate.
    + intros H. right. exists v. split; [now apply stored_some|now apply FR].
    + intros [= ->]. left. split; [now apply stored_none|reflexivity].
  - intros [(U & ->)|(v & L & H)]; [now rewrite (unsaid_stored U)|]. rewrite (last_stored L). now apply FR.
Qed.
Lemma maybe_iff evs d x : one evs d (maybe f) None = Some x <-> optional evs d R x.
Proof.
  unfold one, optional, maybe. split.
  - destruct (stored evs d) as [[|v [|]]|] eqn:S; try discriminate.
    + destruct (f v) as [y|] eqn:F; [|discriminate]. intros [= <-]. right. exists v, y. split; [now apply stored_some|]. split; [now apply FR|reflexivity].
    + intros [= <-]. left. split; [now apply stored_none|reflexivity].
  - intros [(U & ->)|(v & y & L & H & ->)]; [now rewrite (unsaid_stored U)|]. rewrite (last_stored L). apply FR in H. now rewrite H.
Qed.
Lemma needed_iff evs d x : needed evs d f = Some x <-> required evs d R x.
Proof.
  unfold needed, required. split.
  - destruct (stored evs d) as [[|v [|]]|] eqn:S; try discriminate. intros H. exists v. split; [now apply stored_some|now apply FR].
  - intros (v & L & H). rewrite (last_stored L). now apply FR.
Qed.
Lemma two_iff evs d x : two evs d f = Some x <-> couple evs d R x.
Proof.
  unfold two, couple, pair_of. split.
  - destruct (stored evs d) as [[|v [|w [|]]]|] eqn:S; try discriminate.
    + destruct (f v) as [y|] eqn:F1, (f w) as [z|] eqn:F2; try discriminate. intros [= <-]. right. exists v, w, y, z.
      apply stored_some in S. apply FR in F1, F2. auto.
    + intros [= <-]. left. split; [now apply stored_none|reflexivity].
  - intros [(U & ->)|(v & w & y & z & L & H1 & H2 & ->)]; [now rewrite (unsaid_stored U)|]. rewrite (last_stored L). apply FR in H1, H2. now rewrite H1, H2.
Qed.
Lemma three_iff evs d x : three evs d f = Some x <-> triple evs d R x.
Proof.
  unfold three, triple. split.
  - destruct (stored evs d) as [[|u [|v [|w [|]]]]|] eqn:S; try discriminate.
    + destruct (f u) as [p|] eqn:F0, (f v) as [y|] eqn:F1, (f w) as [z|] eqn:F2; try discriminate. intros [= <-]. right. exists u, v, w, p, y, z.
      apply stored_some in S. apply FR in F0, F1, F2. auto 8.
    + intros [= <-]. left. split; [now apply stored_none|reflexivity].
  - intros [(U & ->)|(u & v & w & p & y & z & L & H0 & H1 & H2 & ->)]; [now rewrite (unsaid_stored U)|]. rewrite (last_stored L). apply FR in H0, H1, H2. now rewrite H0, H1, H2.
Qed.
End Read.

Lemma pairs_iff d evs ps : all_pairs as_str as_float (appended evs d) = Some ps <-> every d evs ps.
Proof.
  split.
  - revert ps. induction evs as [|e l IH]; intros ps; [cbn; intros [= <-]; constructor|].
    assert (K : (forall vs, e <> Given d vs) -> appended (e :: l) d = appended l d).
    { intros N. destruct e as [x vs|x b|s]; auto. cbn. destruct (String.eqb_spec x d); [subst; now destruct (N vs)|reflexivity]. }
    assert (D : (forall vs, e <> Given d vs) \/ exists vs, e = Given d vs).
    { destruct e as [x vs|x b|s]; [|left; discriminate|left; discriminate]. destruct (String.eqb_spec x d) as [->|N]; [right; eauto|left; congruence]. }
    destruct D as [N|(vs & ->)].
    + rewrite (K N). intros H. apply ev_other; auto.
    + cbn. rewrite String.eqb_refl. cbn. unfold pair_of. destruct vs as [|s [|t [|]]]; try discriminate. cbn.
      destruct (as_float t) as [q|] eqn:F; [|discriminate]. fold (appended l d). destruct (all_pairs as_str as_float (appended l d)) as [ps'|] eqn:P; [|discriminate].
      intros [= <-]. apply ev_pair; [now apply float_iff|auto].
  - induction 1 as [|e l ps N _ IH|s t q l ps Q _ IH]; [reflexivity| |].
    + destruct e as [x vs|x b|u]; auto. cbn. destruct (String.eqb_spec x d); [subst; now destruct (N vs)|exact IH].
    + cbn. rewrite String.eqb_refl. cbn. fold (appended l d). apply float_iff in Q. now rewrite Q, IH.
Qed.
Lemma truth_iff evs d dflt b : truth evs d dflt = b <-> switch evs d dflt b.
Proof.
  unfold truth, switch. split.
  - intros <-. pose proof (flagged_spec evs d) as S. destruct (flagged evs d); [now right|left; auto].
  - intros [(U & ->)|L]; [now rewrite (unset_flagged U)|now rewrite (last_flagged L)].
Qed.
Lemma words_app a b : words (a ++ b) = words a ++ words b.
Proof. apply flat_map_app. Qed.
Lemma words_nil l : words l = [] <-> forall t, ~ In (Pos t) l.
Proof.
  induction l as [|e l IH]; cbn; [split; [intros _ t []|reflexivity]|]. destruct e as [x vs|x b|s]; cbn; fold (words l).
  - rewrite IH. split; [intros H t [E|I]; [discriminate|now apply (H t)]|intros H t I; apply (H t); auto].
  - rewrite IH. split; [intros H t [E|I]; [discriminate|now apply (H t)]|intros H t I; apply (H t); auto].
  - split; [discriminate|]. intros H. exfalso. apply (H s). auto.
Qed.
Lemma words_one l f : words l = [f] -> exists l1 l2, l = l1 ++ Pos f :: l2 /\ words l1 = [] /\ words l2 = [].
Proof.
  induction l as [|e l IH]; cbn; [discriminate|]. destruct e as [x vs|x b|s]; cbn; fold (words l).
  - intros H. destruct (IH H) as (l1 & l2 & -> & W). exists (Given x vs :: l1), l2. auto.
  - intros H. destruct (IH H) as (l1 & l2 & -> & W). exists (Flag x b :: l1), l2. auto.
  - intros [= -> H]. exists [], l. auto.
Qed.
Lemma input_iff there evs f : input_of there evs = Some f <-> the_input there evs f.
Proof.
  unfold input_of, the_input. split.
  - destruct (words evs) as [|g [|]] eqn:W; try discriminate. destruct (there g) eqn:T; [|discriminate]. intros [= ->]. split; auto.
    destruct (words_one W) as (l1 & l2 & E & W1 & W2). exists l1, l2. split; auto. apply words_nil. now rewrite words_app, W1, W2.
  - intros (T & l1 & l2 & -> & N). apply words_nil in N. rewrite words_app in N. apply app_eq_nil in N as (N1 & N2).
    rewrite words_app, N1. cbn. fold (words l2). now rewrite N2, T.
Qed.

Lemma ask_iff A B (a : option A) (b : A -> outcome B) c : (match a with Some x => b x | None => Usage end) = Called c <-> exists x, a = Some x /\ b x = Called c.
Proof. destruct a as [x|]; split; [intros H; exists x; auto|now intros (y & [= <-] & H)|discriminate|intros (y & H & _); discriminate]. Qed.

Lemma command_iff A ds tb (body : list ev -> outcome A) toks c : table_ok (help :: ds) tb ->
  (command ds body toks = Called c <-> exists evs, line tb toks evs /\ no_help evs /\ body evs = Called c).
Proof.
  intros T. unfold command, no_help. split.
  - destruct (scan (help :: ds) toks None) as [evs|] eqn:S; [|discriminate]. apply (scan_iff T) in S. destruct (flagged evs "help") eqn:F; [discriminate|].
    apply flagged_none in F. eauto.
  - intros (evs & L & N & B). apply (scan_iff T) in L. rewrite L. apply flagged_none in N. now rewrite N.
Qed.
Lemma command_shown A ds tb (body : list ev -> outcome A) toks : table_ok (help :: ds) tb -> (forall evs, body evs <> Shown) ->
  (command ds body toks = Shown <-> exists evs, line tb toks evs /\ ~ no_help evs).
Proof.
  intros T NB. unfold command, no_help. split.
  - destruct (scan (help :: ds) toks None) as [evs|] eqn:S; [|discriminate]. apply (scan_iff T) in S. destruct (flagged evs "help") eqn:F.
    + intros _. exists evs. split; auto. intros U. apply flagged_none in U. congruence.
    + intros H. now destruct (NB evs).
  - intros (evs & L & N). apply (scan_iff T) in L. rewrite L. destruct (flagged evs "help") eqn:F; auto. apply flagged_none in F. now destruct N.
Qed.

(** the tables *)
Ltac table := split; [reflexivity|split; [vm_compute; repeat constructor; cbn; intuition discriminate|
  repeat constructor; cbn; try discriminate; repeat split; try discriminate]].
Lemma ok_suplat : table_ok (help :: suplat_decls) t_suplat. Proof. table. Qed.
Lemma ok_ocumaker : table_ok (help :: ocumaker_decls) t_ocumaker. Proof. table. Qed.
Lemma ok_ocubiter : table_ok (help :: ocubiter_decls) t_ocubiter. Proof. table. Qed.
Lemma ok_ocutenter : table_ok (help :: ocutenter_decls) t_ocutenter. Proof. table. Qed.
Lemma ok_ocumakert : table_ok (help :: ocumakert_decls) t_ocumakert. Proof. table. Qed.
Lemma ok_atclear : table_ok (help :: atclear_decls) t_atclear. Proof. table. Qed.
Lemma ok_perturb : table_ok (help :: perturb_decls) t_perturb. Proof. table. Qed.
Lemma ok_supcell : table_ok (help :: supcell_decls) t_supcell. Proof. table. Qed.
Lemma ok_pcell : table_ok (help :: pcell_decls) t_pcell. Proof. table. Qed.
