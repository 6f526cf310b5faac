(** Lemmas about the command-line applications: sequences of writes. *)
From Coq Require Import String Ascii.
From Verif Require Import Base BaseQ MElement MGeneralCell MHnf MRestrict MSogen MText MIO SSubst SCli MCli.
Set Implicit Arguments.
Unset Strict Implicit.
Open Scope list_scope.
Notation length := List.length.

Section W.
Context {P T : Type}.
Implicit Types (fs : P -> option T) (ws : list (P * T)).
Variable Pdec : forall a b : P, {a = b} + {a <> b}.

Lemma aw_nil fs : after_writes fs [] fs.
Proof. split; [auto|]. intros l1 p t l2 H. destruct l1; discriminate. Qed.

Lemma aw_app fs ws1 fs1 ws2 fs2 : after_writes fs ws1 fs1 -> after_writes fs1 ws2 fs2 -> after_writes fs (ws1 ++ ws2) fs2.
Proof.
  intros [A1 B1] [A2 B2]. split.
  - intros p N. rewrite map_app, in_app_iff in N. rewrite A2, A1; tauto.
  - intros l1 p t l2 E N.
    destruct (in_dec Pdec p (map fst ws2)) as [I|I].
    + (* the write is in ws2 *)
      assert (exists m, ws2 = m ++ (p, t) :: l2) as (m & Em).
      { clear -E N I. revert ws1 E. induction l1 as [|x l1 IH]; intros ws1 E.
        - destruct ws1 as [|y ws1]; cbn in E.
          + exists []. exact E.
          + injection E as E1 E2. exfalso. apply N. rewrite <- E2, map_app, in_app_iff. now right.
        - destruct ws1 as [|y ws1]; cbn in E.
          + exists (x :: l1). exact E.
          + injection E as E1 E2. exact (IH _ E2). }
      exact (B2 _ _ _ _ Em N).
    + rewrite A2 by exact I.
      assert (exists m, ws1 = l1 ++ (p, t) :: m /\ incl (map fst m) (map fst l2)) as (m & Em & Im).
      { clear -E I. revert ws1 E. induction l1 as [|x l1 IH]; intros ws1 E.
        - destruct ws1 as [|y ws1]; cbn in E.
          + exfalso. apply I. rewrite E. now left.
          + injection E as E1 E2. exists ws1. subst y. split; [reflexivity|]. rewrite <- E2, map_app. apply incl_appl, incl_refl.
        - destruct ws1 as [|y ws1]; cbn in E.
          + exfalso. apply I. rewrite E. right. rewrite map_app, in_app_iff. right. now left.
          + injection E as E1 E2. destruct (IH _ E2) as (m & -> & H). exists m. subst y. auto. }
      exact (B1 _ _ _ _ Em (fun H => N (Im _ H))).
Qed.

Lemma aw_each fs ws fs' : after_writes fs ws fs' -> NoDup (map fst ws) -> each_has_its_file fs ws fs'.
Proof.
  intros [A B] N. split; [exact N|split; [|exact A]].
  intros p t I. apply in_split in I as (l1 & l2 & ->). apply (B _ _ _ _ eq_refl).
  rewrite map_app in N. cbn [map fst] in N. apply NoDup_remove_2 in N. intros H. apply N, in_app_iff. now right.
Qed.
End W.

Lemma aw_put (fs : files) p t : after_writes fs [(p, t)] (put fs p t).
Proof.
  unfold put. split.
  - intros x N. destruct (String.eqb x p) eqn:E; [|reflexivity]. apply String.eqb_eq in E. subst. exfalso. apply N. now left.
  - intros l1 x u l2 E N. destruct l1 as [|w l1]; cbn in E.
    + injection E as -> -> <-. now rewrite String.eqb_refl.
    + injection E as _ E. destruct l1; discriminate.
Qed.

Lemma indexed_nil A B (R : nat -> A -> B -> Prop) : indexed R [] [].
Proof. split; [reflexivity|]. intros [|k] x y H; discriminate. Qed.
Lemma indexed_cons A B (R : nat -> A -> B -> Prop) x y l m : R 0%nat x y -> indexed (fun k => R (S k)) l m -> indexed R (x :: l) (y :: m).
Proof.
  intros H [L N]. split; [cbn; now rewrite L|]. intros [|k] a b; cbn; [intros [=<-] [=<-]; exact H|]. apply N.
Qed.
Lemma indexed_app A B (R : nat -> A -> B -> Prop) l m l' m' : indexed R l m -> indexed (fun k => R (length l + k)%nat) l' m' -> indexed R (l ++ l') (m ++ m').
Proof.
  intros [L N] [L' N']. split; [rewrite !app_length; lia|]. intros k x y.
  destruct (Nat.lt_ge_cases k (length l)).
  - rewrite !nth_error_app1 by lia. apply N.
  - rewrite !nth_error_app2 by lia. rewrite <- L. intros X Y. specialize (N' _ _ _ X Y).
    now replace (length l + (k - length l))%nat with k in N' by lia.
Qed.
Lemma indexed_ext A B (R R' : nat -> A -> B -> Prop) l m : (forall k x y, R k x y -> R' k x y) -> indexed R l m -> indexed R' l m.
Proof. intros H [L N]. split; [exact L|]. intros k x y X Y. apply H. eauto. Qed.

Lemma selected_app A (W : A -> Prop) l k l' k' : selected W l k -> selected W l' k' -> selected W (l ++ l') (k ++ k').
Proof. intros H H'. induction H; cbn; [exact H'|constructor; auto|apply sel_drop; auto]. Qed.

Lemma an_nil P T (fs : P -> option T) : all_new fs [] fs.
Proof. split; [split; [constructor|split; [intros ? ? []|auto]]|intros ? []]. Qed.
Lemma an_app P T (Pdec : forall a b : P, {a = b} + {a <> b}) (fs : P -> option T) ws1 fs1 ws2 fs2 :
  all_new fs ws1 fs1 -> all_new fs1 ws2 fs2 -> all_new fs (ws1 ++ ws2) fs2.
Proof.
  intros [(N1 & A1 & B1) F1] [(N2 & A2 & B2) F2].
  assert (D : forall p, In p (map fst ws1) -> ~ In p (map fst ws2)).
  { intros p I J. specialize (F2 p J). apply in_map_iff in I as ((q, t) & <- & I). specialize (A1 _ _ I). cbn [fst] in *. congruence. }
  split; [split; [|split]|].
  - rewrite map_app. clear - N1 N2 D. induction (map fst ws1) as [|x l IH]; cbn; [exact N2|]. inversion N1; subst. constructor.
    + rewrite in_app_iff. intros [I|I]; [auto|]. exact (D x (or_introl eq_refl) I).
    + apply IH; [assumption|]. intros p I. apply D. now right.
  - intros p t I. apply in_app_iff in I as [I|I]; [|auto]. rewrite B2; [auto|]. apply D. apply in_map_iff. exists (p, t). auto.
  - intros p N. rewrite map_app, in_app_iff in N. rewrite B2, B1; tauto.
  - intros p I. rewrite map_app, in_app_iff in I. destruct I as [I|I]; [auto|].
    destruct (in_dec Pdec p (map fst ws1)) as [J|J]; [destruct (D p J I)|]. rewrite <- (B1 p J). auto.
Qed.
Lemma an_put (fs : files) p t : fs p = None -> all_new fs [(p, t)] (put fs p t).
Proof.
  intros H. split; [|intros q [<-|[]]; exact H]. split; [repeat constructor; intros []|]. split.
  - intros q u [[= <- <-]|[]]. unfold put. now rewrite String.eqb_refl.
  - intros q N. unfold put. destruct (String.eqb_spec q p); [|reflexivity]. subst. exfalso. apply N. now left.
Qed.

(** ** The loop *)
Section Emit.
Context {A : Type}.
Variables (acc : A -> res bool) (sv : nat -> A -> files -> res files).
Variable (R : nat -> A -> string * string -> Prop).
Variable (Q : files -> list (string * string) -> files -> Prop).
Hypothesis Q_nil : forall fs, Q fs [] fs.
Hypothesis Q_app : forall fs w1 fs1 w2 fs2, Q fs w1 fs1 -> Q fs1 w2 fs2 -> Q fs (w1 ++ w2) fs2.
Hypothesis SV : forall k c fs fs', sv k c fs = Ok fs' -> exists w, R k c w /\ Q fs [w] fs'.
Definition W (c : A) : Prop := acc c = Ok true.

(** Outcome of processing a list of cells starting with suffix number [k]. *)
Definition done_upto (cells : list A) (k : nat) (fs : files) (r : nat * files * option exn) : Prop :=
  exists done rest kept ws, cells = done ++ rest /\ selected W done kept /\
    indexed (fun i => R (k + i)) kept ws /\ Q fs ws (snd (fst r)) /\
    fst (fst r) = (k + length kept)%nat /\ (snd r = None -> rest = []).

Lemma emit_spec cells : forall k fs, done_upto cells k fs (emit acc sv cells k fs).
Proof.
  induction cells as [|c rest IH]; intros k fs; cbn [emit].
  - exists [], [], [], []. split; [reflexivity|]. split; [constructor|]. split; [apply indexed_nil|].
    split; [apply Q_nil|]. split; [cbn; lia|reflexivity].
  - assert (STOP : forall e, done_upto (c :: rest) k fs (k, fs, Some e)).
    { intros e. exists [], (c :: rest), [], []. split; [reflexivity|]. split; [constructor|]. split; [apply indexed_nil|].
      split; [apply Q_nil|]. split; [cbn; lia|discriminate]. }
    destruct (acc c) as [[|]|e] eqn:EA; [|destruct (IH k fs) as (d & r & kp & ws & E1 & E2 & E3 & E4 & E5 & E6)|exact (STOP e)].
    + destruct (sv k c fs) as [fs'|e] eqn:ES; [|exact (STOP e)].
      destruct (SV ES) as (w & HR & HQ).
      destruct (IH (S k) fs') as (d & r & kp & ws & E1 & E2 & E3 & E4 & E5 & E6).
      exists (c :: d), r, (c :: kp), (w :: ws). split; [cbn; now rewrite E1|]. split; [now constructor|].
      split. { apply indexed_cons; [now rewrite Nat.add_0_r|]. eapply indexed_ext; [|exact E3]. intros i x y H. cbn beta in *.
        now replace (k + S i)%nat with (S k + i)%nat by lia. }
      split; [change (w :: ws) with ([w] ++ ws); exact (Q_app HQ E4)|].
      split; [cbn [length]; lia|exact E6].
    + exists (c :: d), r, kp, ws. split; [cbn; now rewrite E1|]. split; [apply sel_drop; [unfold W; congruence|exact E2]|]. auto.
Qed.
End Emit.

Section Traces.
Variables (acc : gcell -> res bool) (sv : nat -> gcell -> files -> res files).
Variable (R : nat -> gcell -> string * string -> Prop).
Variable (Q : files -> list (string * string) -> files -> Prop).
Hypothesis Q_nil : forall fs, Q fs [] fs.
Hypothesis Q_app : forall fs w1 fs1 w2 fs2, Q fs w1 fs1 -> Q fs1 w2 fs2 -> Q fs (w1 ++ w2) fs2.
Hypothesis SV : forall k c fs fs', sv k c fs = Ok fs' -> exists w, R k c w /\ Q fs [w] fs'.
Notation done_upto := (done_upto acc R Q).

Lemma emit_trace_spec t : forall k fs, done_upto (items t) k fs (emit_trace acc sv t k fs) /\
  (snd (emit_trace acc sv t k fs) = None -> stop t = None).
Proof.
  intros k fs. unfold emit_trace. pose proof (emit_spec acc Q_nil Q_app SV (items t) k fs) as H.
  destruct (emit acc sv (items t) k fs) as [[k' fs'] [e|]]; split; try discriminate; auto.
  destruct H as (d & r & kp & ws & E1 & E2 & E3 & E4 & E5 & E6). exists d, r, kp, ws. cbn [fst snd] in *. repeat (split; auto).
Qed.

Lemma emit_traces_spec ts : forall k fs, done_upto (List.flat_map (@items gcell) ts) k fs (emit_traces acc sv ts k fs) /\
  (snd (emit_traces acc sv ts k fs) = None -> Forall (fun t => stop t = None) ts).
Proof.
  induction ts as [|t ts IH]; intros k fs; cbn [emit_traces List.flat_map].
  - split; [|constructor]. exact (emit_spec acc Q_nil Q_app SV [] k fs).
  - destruct (emit_trace_spec t k fs) as [H HS].
    destruct (emit_trace acc sv t k fs) as [[k' fs'] [e|]] eqn:E.
    + split; [|discriminate]. destruct H as (d & r & kp & ws & E1 & E2 & E3 & E4 & E5 & E6).
      exists d, (r ++ List.flat_map (@items gcell) ts), kp, ws. split; [rewrite E1, app_assoc; reflexivity|].
      repeat (split; [eassumption|]). discriminate.
    + destruct H as (d & r & kp & ws & E1 & E2 & E3 & E4 & E5 & E6). cbn [fst snd] in *.
      rewrite (E6 eq_refl), app_nil_r in E1. subst d k'.
      destruct (IH (k + length kp)%nat fs') as [(d & r' & kp' & ws' & F1 & F2 & F3 & F4 & F5 & F6) FS].
      split.
      * exists (items t ++ d), r', (kp ++ kp'), (ws ++ ws'). split; [rewrite F1, app_assoc; reflexivity|].
        split; [now apply selected_app|]. split.
        { apply indexed_app; [exact E3|]. eapply indexed_ext; [|exact F3]. intros i x y HH. cbn beta in *. now rewrite Nat.add_assoc. }
        split; [exact (Q_app E4 F4)|]. split; [rewrite app_length; lia|exact F6].
      * intros N. constructor; [apply HS; reflexivity|apply FS, N].
Qed.
End Traces.
