(** The scanner reads exactly the lines of the grammar. *)
From Coq Require Import String Ascii.
From Verif Require Import Base BaseQ LBase MText MOpt SOpt.
Set Implicit Arguments.
Unset Strict Implicit.
Open Scope string_scope.
Open Scope list_scope.
Notation length := List.length.

Definition ar (k : kind) : arity := match k with Values n => Takes n | Truth b => Sets b end.
Definition flatm (ds : list decl) : list (string * (string * arity)) :=
  flat_map (fun x => map (fun n => (n, (snd (fst x), snd x))) (fst (fst x))) ds.
Definition dash1 (c : ascii) : string := String "-" (String c "").
Definition flats (tb : list entry) : list (string * (string * arity)) :=
  flat_map (fun e => (("--" ++ e_long e)%string, (e_dest e, ar (e_kind e))) ::
    match e_short e with Some c => [(dash1 c, (e_dest e, ar (e_kind e)))] | None => [] end) tb.
Fixpoint no_eq (s : string) : Prop := match s with EmptyString => True | String c r => c <> "="%char /\ no_eq r end.
Definition good_entry (e : entry) : Prop :=
  e_long e <> "" /\ no_eq (e_long e) /\ e_short e <> Some "-"%char /\ e_kind e <> Values 0.

Definition table_ok (ds : list decl) (tb : list entry) : Prop :=
  flatm ds = flats tb /\ NoDup (map fst (flats tb)) /\ Forall good_entry tb.

Lemma find_in_names n names : existsb (String.eqb n) names = true <-> In n names.
Proof.
  rewrite existsb_exists. split; [intros (x & I & E); apply String.eqb_eq in E; now subst|intros I; exists n; split; auto; apply String.eqb_refl].
Qed.
Lemma find_decl_flat ds n x : find_decl ds n = Some x -> In (n, x) (flatm ds).
Proof.
  induction ds as [|[[names d] a] r IH]; cbn; [discriminate|]. destruct (existsb (String.eqb n) names) eqn:E.
  - intros [= <-]. apply in_or_app. left. apply find_in_names in E. change (n, (d, a)) with ((fun m => (m, (d, a))) n). now apply in_map.
  - intros H. apply in_or_app. right. auto.
Qed.
Lemma find_decl_key ds n x : In (n, x) (flatm ds) -> exists y, find_decl ds n = Some y.
Proof.
  induction ds as [|[[names d] a] r IH]; cbn; [tauto|]. intros I. apply in_app_or in I. destruct (existsb (String.eqb n) names) eqn:E; [eexists; reflexivity|].
  destruct I as [I|I]; [|auto]. apply in_map_iff in I as (m & [= -> _] & I). apply find_in_names in I. congruence.
Qed.
Lemma nodup_key A (l : list (string * A)) n x y : NoDup (map fst l) -> In (n, x) l -> In (n, y) l -> x = y.
Proof.
  induction l as [|[m z] r IH]; cbn; [tauto|]. intros ND. inversion ND; subst. intros [[= -> ->]|I] [[= E]|J]; subst; auto.
  - exfalso. apply H1. change n with (fst (n, y)). now apply in_map.
  - exfalso. apply H1. change n with (fst (n, x)). now apply in_map.
Qed.
Lemma find_decl_iff ds tb n x : table_ok ds tb -> (find_decl ds n = Some x <-> In (n, x) (flats tb)).
Proof.
  intros (F & ND & _). rewrite <- F in *. split; [apply find_decl_flat|]. intros I. destruct (find_decl_key I) as (y & Y).
  rewrite Y. f_equal. apply find_decl_flat in Y. exact (nodup_key ND Y I).
Qed.

Lemma find_long ds tb l d a : table_ok ds tb ->
  (find_decl ds ("--" ++ l)%string = Some (d, a) <-> exists c k, In (E l c d k) tb /\ a = ar k).
Proof.
  intros T. rewrite (find_decl_iff _ _ T). destruct T as (_ & _ & G). unfold flats. rewrite in_flat_map. split.
  - intros ([l' c' d' k'] & I & J). cbn in J. destruct J as [J|J].
    + injection J as -> -> <-. eauto.
    + destruct c' as [c'|]; [|destruct J]. destruct J as [J|[]]. exfalso. unfold dash1 in J. injection J as J _ _ _. subst.
      rewrite Forall_forall in G. apply G in I. destruct I as (_ & _ & N & _). now apply N.
  - intros (c & k & I & ->). exists (E l c d k). split; auto. left. reflexivity.
Qed.
Lemma find_short ds tb c d a : table_ok ds tb ->
  (find_decl ds (dash1 c) = Some (d, a) <-> exists l k, In (E l (Some c) d k) tb /\ a = ar k).
Proof.
  intros T. rewrite (find_decl_iff _ _ T). destruct T as (_ & _ & G). unfold flats. rewrite in_flat_map. split.
  - intros ([l' c' d' k'] & I & J). cbn in J. destruct J as [J|J].
    + exfalso. unfold dash1 in J. injection J as _ J _ _. rewrite Forall_forall in G. apply G in I. destruct I as (N & _). now apply N.
    + destruct c' as [c'|]; [|destruct J]. destruct J as [J|[]]. unfold dash1 in J. injection J as -> -> <-. eauto.
  - intros (l & k & I & ->). exists (E l (Some c) d k). split; auto. cbn. auto.
Qed.

(** [=] *)
Lemma cut_none s a : cut_eq s = (a, None) -> s = a /\ no_eq a.
Proof.
  revert a. induction s as [|c r IH]; cbn; intros a; [intros [= <-]; now split|]. destruct (Ascii.eqb_spec c "="); [discriminate|].
  destruct (cut_eq r) as [a' b'] eqn:E. intros [= <- ->]. destruct (IH _ eq_refl) as (-> & N). now split.
Qed.
Lemma cut_some s a b : cut_eq s = (a, Some b) -> s = (a ++ "=" ++ b)%string /\ no_eq a.
Proof.
  revert a. induction s as [|c r IH]; cbn; intros a; [discriminate|]. destruct (Ascii.eqb_spec c "="); [intros [= <- <-]; subst; now split|].
  destruct (cut_eq r) as [a' b'] eqn:E. intros [= <- ->]. destruct (IH _ eq_refl) as (-> & N). now split.
Qed.
Lemma cut_no_eq s : no_eq s -> cut_eq s = (s, None).
Proof. induction s as [|c r IH]; cbn; auto. intros (N & H). apply Ascii.eqb_neq in N. now rewrite N, (IH H). Qed.
Lemma cut_at_eq s v : no_eq s -> cut_eq (s ++ "=" ++ v)%string = (s, Some v).
Proof.
  induction s as [|c r IH]; cbn; auto. intros (N & H). apply Ascii.eqb_neq in N. rewrite N. specialize (IH H). cbn in IH. now rewrite IH.
Qed.
Lemma prefix_dd s : String.prefix "--" s = true -> exists l, s = ("--" ++ l)%string.
Proof.
  intros H. destruct s as [|a s]; [discriminate|]. cbn [String.prefix] in H. destruct (ascii_dec "-" a) as [<-|]; [|discriminate H].
  destruct s as [|b r]; [discriminate H|]. cbn [String.prefix] in H. destruct (ascii_dec "-" b) as [<-|]; [|discriminate H]. now exists r.
Qed.
Lemma prefix_yes l : String.prefix "--" ("--" ++ l) = true.
Proof. now destruct l. Qed.
Lemma prefix_yes2 l r : String.prefix "--" (("--" ++ l) ++ r) = true.
Proof. exact (prefix_yes (l ++ r)). Qed.
Lemma prefix_dd_no c r : c <> "-"%char -> String.prefix "--" (String "-" (String c r)) = false.
Proof. intros N. cbn [String.prefix]. destruct (ascii_dec "-" "-"); [|reflexivity]. destruct (ascii_dec "-" c); congruence. Qed.
Lemma app_nil_s (s : string) : (s ++ "")%string = s.
Proof. induction s as [|c r IH]; cbn; congruence. Qed.
Lemma app_assoc_s (a b c : string) : ((a ++ b) ++ c)%string = (a ++ (b ++ c))%string.
Proof. induction a as [|x r IH]; cbn; congruence. Qed.
Lemma no_eq_app a b : no_eq (a ++ b)%string -> no_eq a.
Proof. induction a as [|c r IH]; cbn; tauto. Qed.

(** *** One word *)
Section Table.
Variables (ds : list decl) (tb : list entry).
Hypothesis T : table_ok ds tb.

Lemma not_zero l c d k n : In (E l c d k) tb -> Takes n = ar k -> exists m, n = S m.
Proof.
  intros I H. destruct T as (_ & _ & G). rewrite Forall_forall in G. apply G in I. destruct I as (_ & _ & _ & N). cbn in N.
  destruct k; [|discriminate]. cbn in H. injection H as ->. destruct n0; [congruence|eauto].
Qed.
Lemma short_not_dash l c d k : In (E l (Some c) d k) tb -> c <> "-"%char.
Proof.
  intros I H. destruct T as (_ & _ & G). rewrite Forall_forall in G. apply G in I. destruct I as (_ & _ & N & _). cbn in N. congruence.
Qed.

(** what a word that has been read may be followed by *)
Definition complete (t : string) (es : list ev) (w : option wait) : Prop :=
  match w with
  | None => piece tb [t] es
  | Some (Wait d k got) => forall vs, length vs = S k -> piece tb (t :: vs) (es ++ [Given d (got ++ vs)])
  end.

Lemma flags_app s1 e1 c l d b : flags tb s1 e1 -> In (E l (Some c) d (Truth b)) tb -> flags tb (s1 ++ String c "")%string (e1 ++ [Flag d b]).
Proof. induction 1; cbn; intros I; econstructor; eauto. constructor. Qed.

Lemma short_complete s : forall pre pes es w, flags tb pre pes -> (pre ++ s)%string <> "" -> short_opts ds s = Some (es, w) ->
  complete ("-" ++ pre ++ s)%string (pes ++ es) w.
Proof.
  induction s as [|c r IH]; intros pre pes es w FP NE; cbn [short_opts].
  - intros [= <- <-]. rewrite app_nil_r. cbn [complete]. apply pc_flags; auto. rewrite app_nil_s. exact FP.
  - fold (dash1 c). destruct (find_decl ds (dash1 c)) as [[d a]|] eqn:F; [|discriminate]. apply (find_short _ _ _ T) in F as (l & k & I & ->).
    destruct k as [n|b]; cbn [ar].
    + destruct (not_zero I eq_refl) as (m & ->). cbn [begin_opt begin_with feed]. destruct r as [|c2 r2].
      * intros [= <- <-]. rewrite app_nil_r. cbn [complete begin_opt]. intros vs L. refine (@pc_short tb _ _ l _ _ vs FP _). now rewrite L.
      * intros H. unfold begin_with in H. cbn [begin_opt] in H. cbn in H. destruct m; cbn in H; injection H as <- <-; cbn [complete].
        -- refine (@pc_glued tb _ _ l _ _ _ [] FP I _); discriminate.
        -- intros vs L. rewrite app_nil_r. cbn [app]. refine (@pc_glued tb _ _ l _ _ _ vs FP _ _); [now rewrite L|discriminate].
    + destruct (short_opts ds r) as [[es' w']|] eqn:R; [|discriminate]. intros [= <- <-].
      specialize (IH (pre ++ String c "")%string (pes ++ [Flag d b]) es' w' (flags_app FP I)).
      rewrite app_assoc_s in IH. cbn in IH. rewrite <- app_assoc in IH. cbn in IH. apply IH; auto.
Qed.

Lemma word_complete t es w : dashed t = true -> t <> "--" -> word_opts ds t = Some (es, w) -> complete t es w.
Proof.
  intros D ND. unfold word_opts. destruct (cut_eq t) as [name value] eqn:C. destruct (String.prefix "--" t) eqn:P.
  - destruct (find_decl ds name) as [[d a]|] eqn:F; [|discriminate].
    assert (N : exists l, name = ("--" ++ l)%string).
    { destruct (prefix_dd P) as (l & ->). cbn in C. destruct (cut_eq l) as [a' b'] eqn:C'. injection C as <- <-. exists a'. reflexivity. }
    destruct N as (l & ->). apply (find_long _ _ _ T) in F as (c & k & I & ->). destruct k as [n|b]; cbn [ar].
    + destruct (not_zero I eq_refl) as (m & ->). destruct value as [v|].
      * apply cut_some in C as (-> & _). unfold begin_with. cbn [begin_opt feed]. destruct m; cbn; intros [= <- <-]; cbn [complete].
        -- exact (@pc_long_eq tb _ _ _ v [] I).
        -- intros vs L. refine (@pc_long_eq tb l c d v vs _). now rewrite L.
      * apply cut_none in C as (-> & _). cbn [begin_opt]. intros [= <- <-]. cbn [complete]. intros vs L. refine (@pc_long tb l c d vs _). now rewrite L.
    + destruct value as [v|]; [discriminate|]. apply cut_none in C as (-> & _). intros [= <- <-]. exact (@pc_flag tb _ _ _ _ I).
  - destruct t as [|c0 [|c1 r]]; try discriminate. cbn in D. apply Ascii.eqb_eq in D. subst c0. intros H.
    apply (short_complete (pre:="") (pes:=[])) in H; [exact H|constructor|discriminate].
Qed.

(** *** Waiting for values *)
Lemma scan_wait k : forall toks d got l,
  scan ds toks (Some (Wait d k got)) = Some l <->
  exists vs tr er, toks = vs ++ tr /\ length vs = S k /\ l = Given d (got ++ vs) :: er /\ scan ds tr None = Some er.
Proof.
  induction k as [|k IH]; intros toks d got l; (destruct toks as [|t r]; cbn [scan feed]; [split; [discriminate|]; intros (vs & tr & er & E & L & _); destruct vs; discriminate|]).
  - destruct (scan ds r None) as [er|] eqn:S; split.
    + intros [= <-]. exists [t], r, er. auto.
    + intros (vs & tr & er' & E & L & -> & S'). destruct vs as [|v [|]]; try discriminate. injection E as -> ->. cbn. congruence.
    + discriminate.
    + intros (vs & tr & er' & E & L & -> & S'). destruct vs as [|v [|]]; try discriminate. injection E as -> ->. congruence.
  - transitivity (scan ds r (Some (Wait d k (got ++ [t]))) = Some l).
    { destruct (scan ds r (Some (Wait d k (got ++ [t])))); cbn; tauto. }
    rewrite IH. split.
    + intros (vs & tr & er & -> & L & -> & S). exists (t :: vs), tr, er. rewrite <- app_assoc. cbn. auto.
    + intros (vs & tr & er & E & L & -> & S). destruct vs as [|v vs]; [discriminate|]. injection E as -> ->. exists vs, tr, er. rewrite <- app_assoc. cbn. auto.
Qed.

(** *** Every word the scanner accepts is in the grammar *)
Lemma scan_line : forall n toks evs, (length toks <= n)%nat -> scan ds toks None = Some evs -> line tb toks evs.
Proof.
  induction n as [|n IH]; intros toks evs L; (destruct toks as [|t r]; [intros [= <-]; constructor|]); cbn in L; [lia|].
  cbn [scan]. destruct (String.eqb_spec t "--") as [->|ND]; [intros [= <-]; apply ln_end|]. destruct (dashed t) eqn:D.
  - destruct (word_opts ds t) as [[es w]|] eqn:W; [|discriminate]. pose proof (word_complete D ND W) as C. destruct w as [[d k got]|].
    + destruct (scan ds r (Some (Wait d k got))) as [l|] eqn:S; [|discriminate]. intros [= <-]. apply scan_wait in S as (vs & tr & er & -> & LV & -> & S).
      change (t :: vs ++ tr) with ((t :: vs) ++ tr). replace (es ++ Given d (got ++ vs) :: er) with ((es ++ [Given d (got ++ vs)]) ++ er) by now rewrite <- app_assoc.
      apply ln_cons; [now apply C|]. apply IH; auto. rewrite app_length in L. lia.
    + destruct (scan ds r None) as [er|] eqn:S; [|discriminate]. intros [= <-]. change (t :: r) with ([t] ++ r). apply ln_cons; [exact C|]. apply IH; auto. lia.
  - destruct (scan ds r None) as [er|] eqn:S; [|discriminate]. intros [= <-]. change (t :: r) with ([t] ++ r). change (Pos t :: er) with ([Pos t] ++ er).
    apply ln_cons; [|apply IH; auto; lia]. apply pc_plain. unfold plain. destruct t as [|c [|c2 r2]]; auto.
    + destruct (Ascii.eqb_spec c "-"); [subst; auto|]. right; right. eauto.
    + cbn in D. apply Ascii.eqb_neq in D. right; right. eauto.
Qed.

(** *** Every line of the grammar is accepted *)
Lemma short_flags s es : flags tb s es -> forall r, short_opts ds (s ++ r)%string =
  match short_opts ds r with None => None | Some (e2, w) => Some (es ++ e2, w) end.
Proof.
  induction 1 as [|l c d b s es I F IH]; intros r; [cbn; now destruct (short_opts ds r) as [[? ?]|]|].
  change (String c s ++ r)%string with (String c (s ++ r)%string). cbn [short_opts]. fold (dash1 c).
  assert (find_decl ds (dash1 c) = Some (d, Sets b)) as -> by (apply (find_short _ _ _ T); exists l, (Truth b); auto).
  rewrite IH. destruct (short_opts ds r) as [[? ?]|]; reflexivity.
Qed.
Lemma short_value l c d n r : In (E l (Some c) d (Values (S n))) tb ->
  short_opts ds (String c r) = match r with EmptyString => Some ([], Some (Wait d n [])) | _ => Some (feed (Wait d n []) r) end.
Proof.
  intros I. cbn [short_opts]. fold (dash1 c).
  assert (find_decl ds (dash1 c) = Some (d, Takes (S n))) as -> by (apply (find_short _ _ _ T); exists l, (Values (S n)); auto).
  reflexivity.
Qed.
Lemma word_short s : (forall c r, s = String c r -> c <> "-"%char) -> s <> "" -> word_opts ds ("-" ++ s)%string = short_opts ds s /\ dashed ("-" ++ s)%string = true /\ ("-" ++ s)%string <> "--".
Proof.
  intros N NE. destruct s as [|c r]; [congruence|]. specialize (N c r eq_refl). change ("-" ++ String c r)%string with (String "-" (String c r)).
  unfold word_opts. rewrite (prefix_dd_no _ N). split; [destruct (cut_eq _); reflexivity|]. split; [reflexivity|congruence].
Qed.
Lemma first_flag s es c r x : flags tb s es -> x <> "-"%char -> forall v, (s ++ String x v)%string = String c r -> c <> "-"%char.
Proof. intros F X v H. destruct F; cbn in H; injection H as <- _; [exact X|]. now apply short_not_dash in H0. Qed.
Lemma first_flag0 s es c r : flags tb s es -> s = String c r -> c <> "-"%char.
Proof. intros F ->. inversion F; subst. now apply short_not_dash in H1. Qed.

Lemma long_word l c d k : In (E l c d k) tb -> dashed ("--" ++ l)%string = true /\ ("--" ++ l)%string <> "--" /\ no_eq ("--" ++ l)%string /\ find_decl ds ("--" ++ l)%string = Some (d, ar k).
Proof.
  intros I. split; [reflexivity|]. destruct T as (_ & _ & G). rewrite Forall_forall in G. pose proof (G _ I) as (NE & NQ & _). cbn in NE, NQ.
  split; [intros [= H]; congruence|]. split; [cbn; repeat split; auto; discriminate|]. apply (find_long _ _ _ T). eauto.
Qed.
Lemma scan_dashed t r : dashed t = true -> t <> "--" -> scan ds (t :: r) None =
  match word_opts ds t with None => None | Some (es, w') => match scan ds r w' with None => None | Some l => Some (es ++ l) end end.
Proof. intros D N. cbn [scan]. apply String.eqb_neq in N. now rewrite N, D. Qed.
Lemma wait_app d k got vs tr er : length vs = S k -> scan ds tr None = Some er ->
  scan ds (vs ++ tr) (Some (Wait d k got)) = Some (Given d (got ++ vs) :: er).
Proof. intros L S. apply scan_wait. exists vs, tr, er. auto. Qed.
Lemma values_pos l c d n : In (E l c d (Values n)) tb -> exists m, n = S m.
Proof. intros I. exact (not_zero I eq_refl). Qed.

Lemma scan_begin d n v vs tr er : scan ds tr None = Some er -> length vs = n ->
  (let '(es, w') := feed (Wait d n []) v in match scan ds (vs ++ tr) w' with None => None | Some l => Some (es ++ l) end) = Some (Given d (v :: vs) :: er).
Proof.
  intros S L. destruct n as [|m]; cbn.
  - destruct vs; [|discriminate]. cbn. now rewrite S.
  - pose proof (wait_app d [v] L S) as W. cbn in W. cbn. now rewrite W.
Qed.

Lemma piece_scan ts es tr er : piece tb ts es -> scan ds tr None = Some er -> scan ds (ts ++ tr) None = Some (es ++ er).
Proof.
  intros P S. destruct P as [t PL|l c d b I|l c d vs I|l c d v vs I|s es NE F|s es l c d vs F I|s es l c d v vs F I NV].
  - cbn [app scan]. assert ((String.eqb t "--") = false /\ dashed t = false) as (-> & ->).
    { destruct PL as [->|[->|(c & r & -> & N)]]; [split; reflexivity|split; reflexivity|]. split; [apply String.eqb_neq; congruence|].
      cbn. destruct r; auto. now apply Ascii.eqb_neq. }
    now rewrite S.
  - destruct (long_word I) as (D & N & Q & FD). change (["--" ++ l]%string ++ tr) with (("--" ++ l)%string :: tr). rewrite scan_dashed; auto.
    unfold word_opts. rewrite (cut_no_eq Q), FD. cbn [ar]. rewrite prefix_yes. now rewrite S.
  - destruct (long_word I) as (D & N & Q & FD). rewrite <- app_comm_cons. rewrite scan_dashed; auto.
    unfold word_opts. rewrite (cut_no_eq Q), FD. cbn [ar]. rewrite prefix_yes.
    destruct (values_pos I) as (m & L). rewrite L. cbn [begin_opt]. rewrite (wait_app _ _ L S). reflexivity.
  - destruct (long_word I) as (D & N & Q & FD). rewrite <- app_comm_cons. rewrite scan_dashed; [|reflexivity|].
    2:{ intros [= H]. destruct l; [|discriminate]. now apply N. }
    unfold word_opts. rewrite <- app_assoc_s. rewrite (cut_at_eq _ Q), FD. cbn [ar]. rewrite prefix_yes2.
    unfold begin_with. cbn [begin_opt]. rewrite (scan_begin d v S eq_refl). reflexivity.
  - destruct (word_short (s:=s)) as (W & D & N); auto. { intros c r H. exact (first_flag0 F H). }
    change (["-" ++ s]%string ++ tr) with (("-" ++ s)%string :: tr). rewrite scan_dashed, W; auto.
    pose proof (short_flags F "") as SF. rewrite app_nil_s in SF. rewrite SF. cbn. rewrite app_nil_r. now rewrite S.
  - destruct (word_short (s:=(s ++ String c "")%string)) as (W & D & N).
    { intros x r H. exact (first_flag F (short_not_dash I) H). } { now destruct s. }
    rewrite <- app_comm_cons. rewrite scan_dashed, W; auto. rewrite (short_flags F). destruct (values_pos I) as (m & L). rewrite L in I.
    rewrite (short_value "" I). rewrite app_nil_r. rewrite (wait_app _ _ L S). now rewrite <- app_assoc.
  - destruct (word_short (s:=(s ++ String c v)%string)) as (W & D & N).
    { intros x r H. exact (first_flag F (short_not_dash I) H). } { now destruct s. }
    rewrite <- app_comm_cons. rewrite scan_dashed, W; auto. rewrite (short_flags F). rewrite (short_value v I).
    destruct v as [|c0 v0]; [congruence|]. pose proof (scan_begin d (String c0 v0) S (vs:=vs) eq_refl) as B.
    destruct (feed (Wait d (length vs) []) (String c0 v0)) as [e2 w2]. destruct (scan ds (vs ++ tr) w2) as [l2|]; [|discriminate].
    injection B as B. rewrite <- !app_assoc, B. reflexivity.
Qed.
Lemma line_scan toks evs : line tb toks evs -> scan ds toks None = Some evs.
Proof. induction 1 as [|ws|ts es tr er P L IH]; [reflexivity|reflexivity|]. now apply piece_scan. Qed.

Lemma scan_iff toks evs : scan ds toks None = Some evs <-> line tb toks evs.
Proof. split; [now apply (scan_line (n:=length toks))|apply line_scan]. Qed.
End Table.
