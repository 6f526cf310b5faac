(** Lemmas for C99: the programs' own options, and when the help is shown. *)
From Coq Require Import String Ascii.
From Verif Require Import Base BaseQ LBase MText MElement MGeneralCell MHnf MSogen MIO MModCell MCli MOpt SOpt LOpt LOpt2 LOpt3 LOpt4.
Set Implicit Arguments. Unset Strict Implicit.
Open Scope string_scope.

Lemma dashed_plain t : t <> "--" -> dashed t = false -> plain t.
Proof.
  intros N D. destruct t as [|c [|c' r]]; [now left| |].
  - destruct (Ascii.eqb_spec c "-") as [->|K]; [right; now left|]. right; right. now exists c, "".
  - cbn in D. apply Ascii.eqb_neq in D. right; right. now exists c, (String c' r).
Qed.
Lemma group_word t : dashed t = true ->
  ((exists e, word_opts group_decls t = Some ([e], None)) /\ (t = "--help" \/ t = "--version")) \/
  (forall e es, word_opts group_decls t <> Some (e :: es, None)) /\ t <> "--help" /\ t <> "--version".
Proof.
  intros D. destruct (string_dec t "--help") as [->|N1]; [left; split; [eexists; reflexivity|now left]|].
  destruct (string_dec t "--version") as [->|N2]; [left; split; [eexists; reflexivity|now right]|].
  right. split; [|auto]. intros e es. unfold word_opts. destruct (cut_eq t) as [name value] eqn:C. destruct (String.prefix "--" t) eqn:P.
  - unfold group_decls, help. cbn [find_decl existsb]. rewrite ?Bool.orb_false_r.
    destruct (String.eqb_spec name "--help") as [->|].
    { destruct value as [v|]; [discriminate|]. exfalso. apply N1. now apply cut_none in C. }
    destruct (String.eqb_spec name "--version") as [->|].
    { destruct value as [v|]; [discriminate|]. exfalso. apply N2. now apply cut_none in C. }
    discriminate.
  - destruct t as [|c [|c' r]]; try discriminate. cbn in D. apply Ascii.eqb_eq in D as ->.
    cbn [short_opts find_decl group_decls help fst snd existsb]. cbn [String.eqb Ascii.eqb Bool.eqb andb orb existsb]. destruct (Ascii.eqb c' "-"); discriminate.
Qed.
Lemma group_scan_true l r : group_scan l true = Some (true, r) <-> exists ws r', l = (ws ++ r')%list /\ program_options ws r' /\ (r' = [] /\ r = [] \/ r' = "--" :: r \/ r' = r /\ exists t r'', r = t :: r'' /\ plain t).
Proof.
  split.
  - induction l as [|t l IH]; cbn [group_scan]; intros H.
    { injection H as <-. exists [], []. split; [reflexivity|]. split; [split; [constructor|now left]|now left]. }
    destruct (String.eqb_spec t "--") as [->|NE].
    { injection H as <-. exists [], ("--" :: l). split; [reflexivity|]. split; [split; [constructor|right; left; now exists l]|right; now left]. }
    destruct (dashed t) eqn:D.
    + destruct (group_word D) as [((e & W) & E)|(W & _)].
      * rewrite W in H. destruct (IH H) as (ws & r' & -> & (F & A) & K). exists (t :: ws), r'. split; [reflexivity|]. split; [split; [now constructor|exact A]|exact K].
      * destruct (word_opts group_decls t) as [[[|e es] [|]]|] eqn:X; try discriminate. now destruct (W e es).
    + injection H as <-. pose proof (dashed_plain NE D) as P. exists [], (t :: l). split; [reflexivity|]. split; [split; [constructor|right; right; now exists t, l]|].
      right; right. split; [reflexivity|]. now exists t, l.
  - intros (ws & r' & -> & (F & _) & K). induction F as [|t ws E F IH]; cbn [List.app].
    + destruct K as [(-> & ->)|[->|(-> & t & r'' & -> & P)]]; [reflexivity|reflexivity|]. destruct (plain_tests P) as (A & B). cbn [group_scan]. now rewrite A, B.
    + destruct E as [-> | ->]; exact IH.
Qed.
Lemma group_scan_shown l : (exists r, group_scan l true = Some (true, r)) <-> exists ws r, l = (ws ++ r)%list /\ program_options ws r.
Proof.
  split.
  - intros (r & H). apply group_scan_true in H as (ws & r' & E & P & _). now exists ws, r'.
  - intros (ws & r' & E & P). pose proof P as (_ & A).
    destruct A as [->|[(r & ->)|(t & r & -> & PT)]]; [exists []|exists r|exists (t :: r)]; apply group_scan_true; eexists ws, _; (split; [exact E|split; [exact P|]]); auto.
    right; right. split; [reflexivity|]. now exists t, r.
Qed.

Section Help.
Variables (A : Type) (cmds : list (string * (list string -> outcome A))) (tbs : list (string * list entry)).
Hypothesis F : Forall2 (fun c t => fst c = fst t /\ plain (fst c) /\ forall toks, snd c toks = Shown <-> exists evs, line (snd t) toks evs /\ ~ no_help evs) cmds tbs.
Hypothesis ND : NoDup (List.map fst tbs).

Lemma pick_some name cmd : pick cmds name = Some cmd -> plain name /\ exists tb, In (name, tb) tbs /\ forall toks, cmd toks = Shown <-> exists evs, line tb toks evs /\ ~ no_help evs.
Proof.
  clear ND. induction F as [|[n c] [n' t] l l' (E & P & H) F' IH]; cbn in *; [discriminate|]. subst n'. destruct (String.eqb_spec name n) as [->|].
  - intros [= <-]. split; [exact P|]. exists t. split; [now left|exact H].
  - intros K. destruct (IH F' K) as (Q & tb & I & J). split; [exact Q|]. exists tb. auto.
Qed.
Lemma pick_in name tb : In (name, tb) tbs -> plain name /\ exists cmd, pick cmds name = Some cmd /\ forall toks, cmd toks = Shown <-> exists evs, line tb toks evs /\ ~ no_help evs.
Proof.
  revert ND. induction F as [|[n c] [n' t] l l' (E & P & H) F' IH]; cbn in *; intros N I; [destruct I|]. subst n'.
  inversion N as [|? ? NI N']; subst. destruct I as [[= <- <-]|I].
  - split; [exact P|]. exists c. rewrite String.eqb_refl. auto.
  - destruct (IH F' N' I) as (Q & cmd & K & J). split; [exact Q|]. exists cmd. split; [|exact J].
    destruct (String.eqb_spec name n) as [->|]; [|exact K]. exfalso. apply NI. apply in_map_iff. exists (n, tb). auto.
Qed.
Lemma group_named name toks : plain name -> group cmds (name :: toks) = match pick cmds name with None => Usage | Some c => c toks end /\
  group cmds ("--" :: name :: toks) = match pick cmds name with None => Usage | Some c => c toks end.
Proof. intros P. destruct (plain_tests P) as (X & Y). unfold group. cbn [group_scan]. rewrite X, Y. cbn. auto. Qed.

Lemma group_help argv : group cmds argv = Shown <-> asks_help tbs argv.
Proof.
  unfold asks_help. split.
  - intros H. destruct argv as [|t r]; [now left|]. right. unfold group in H. cbn [group_scan] in H.
    destruct (String.eqb_spec t "--") as [->|NE].
    { right. destruct r as [|name toks]; [discriminate|]. destruct (pick cmds name) as [cmd|] eqn:K; [|discriminate].
      destruct (pick_some K) as (P & tb & I & J). apply J in H as (evs & L & N). exists name, tb, toks, evs. split; [exact I|]. split; [now right|auto]. }
    destruct (dashed t) eqn:D.
    { left. destruct (group_word D) as [((e & W) & E)|(W & _)].
      - rewrite W in H. destruct (group_scan r true) as [[[|] r']|] eqn:G; [| |discriminate].
        + destruct (proj1 (group_scan_shown r)) as (ws & r'' & -> & (Q1 & Q2)); [now exists r'|]. exists (t :: ws), r''. split; [reflexivity|]. split; [discriminate|]. split; [now constructor|exact Q2].
        + exfalso. revert G. clear. revert r'. induction r as [|a r IH]; cbn; intros r'; [discriminate|]. destruct (String.eqb a "--"); [discriminate|].
          destruct (dashed a); [|discriminate]. destruct (word_opts group_decls a) as [[[|] [|]]|]; try discriminate. apply IH.
      - destruct (word_opts group_decls t) as [[[|e es] [|]]|] eqn:X; try discriminate. now destruct (W e es). }
    right. destruct (pick cmds t) as [cmd|] eqn:K; [|discriminate]. destruct (pick_some K) as (P & tb & I & J). apply J in H as (evs & L & N).
    exists t, tb, r, evs. split; [exact I|]. split; [now left|auto].
  - intros [->|[(ws & r & -> & NE & P)|(name & tb & toks & evs & I & E & L & N)]]; [reflexivity| |].
    + destruct ws as [|w ws]; [congruence|]. destruct P as (P & Q). inversion P as [|? ? W P']; subst.
      destruct (proj2 (group_scan_shown (ws ++ r)%list)) as (x & G); [exists ws, r; split; [reflexivity|now split]|].
      unfold group. cbn [List.app]. destruct W as [-> | ->]; cbn [group_scan]; cbn [String.eqb Ascii.eqb Bool.eqb dashed];
        match goal with |- context[word_opts group_decls ?w] => let v := eval compute in (word_opts group_decls w) in change (word_opts group_decls w) with v end; cbv iota; now rewrite G.
    + destruct (pick_in I) as (P & cmd & K & J). destruct (group_named toks P) as (G1 & G2). destruct E as [-> | ->]; [rewrite G1|rewrite G2]; rewrite K; apply J; now exists evs.
Qed.
End Help.
Lemma group_called_iff A (cmds : list (string * (list string -> outcome A))) name toks c : plain name ->
  group cmds ("--" :: name :: toks) = Called c <-> group cmds (name :: toks) = Called c.
Proof. intros P. destruct (plain_tests P) as (X & Y). unfold group. cbn [group_scan]. rewrite X, Y. cbn. tauto. Qed.

Ltac asked := let evs := fresh in intros evs; cbv beta; repeat match goal with |- context[match ?x with _ => _ end] => destruct x end; discriminate.
Ltac shown T := split; [reflexivity|split; [right; right; do 2 eexists; split; [reflexivity|discriminate]|intros toks; cbn [fst snd]; refine (command_shown toks T _); asked]].
Lemma aba_help there argv : aba_line there argv = Shown <-> asks_help runaba_commands argv.
Proof.
  apply group_help; [|cbn; repeat constructor; cbn; intuition discriminate].
  constructor; [shown ok_suplat|]. constructor; [shown ok_ocumaker|]. constructor; [shown ok_ocubiter|]. constructor; [shown ok_ocutenter|]. constructor; [shown ok_ocumakert|constructor].
Qed.
Lemma ati_help there argv : ati_line there argv = Shown <-> asks_help runati_commands argv.
Proof.
  apply group_help; [|cbn; repeat constructor; cbn; intuition discriminate].
  constructor; [shown ok_atclear|]. constructor; [shown ok_perturb|]. constructor; [shown ok_supcell|]. constructor; [shown ok_pcell|constructor].
Qed.
