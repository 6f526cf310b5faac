(** Order of the options, defaults, names of the commands. *)
From Coq Require Import String Ascii.
From Verif Require Import Base BaseQ LBase MText MElement MGeneralCell MHnf MSogen MIO MModCell MCli MOpt SOpt LOpt LOpt2 LOpt3.
Set Implicit Arguments.
Unset Strict Implicit.
Open Scope string_scope.
Open Scope list_scope.
Notation length := List.length.

Lemma stored_about evs d : stored evs d = stored (filter (about d) evs) d.
Proof.
  induction evs as [|e l IH] using rev_ind; [reflexivity|]. rewrite filter_app, stored_snoc. cbn [filter]. destruct e as [x vs|x b|s]; cbn [about].
  - destruct (String.eqb x d) eqn:E; [rewrite stored_snoc; now rewrite E|now rewrite app_nil_r].
  - destruct (String.eqb x d) eqn:E; [now rewrite stored_snoc|now rewrite app_nil_r].
  - now rewrite app_nil_r.
Qed.
Lemma flagged_about evs d : flagged evs d = flagged (filter (about d) evs) d.
Proof.
  induction evs as [|e l IH] using rev_ind; [reflexivity|]. rewrite filter_app, flagged_snoc. cbn [filter]. destruct e as [x vs|x b|s]; cbn [about].
  - destruct (String.eqb x d) eqn:E; [now rewrite flagged_snoc|now rewrite app_nil_r].
  - destruct (String.eqb x d) eqn:E; [rewrite flagged_snoc; now rewrite E|now rewrite app_nil_r].
  - now rewrite app_nil_r.
Qed.
Lemma appended_about evs d : appended evs d = appended (filter (about d) evs) d.
Proof.
  induction evs as [|e l IH]; [reflexivity|]. cbn. fold (appended l d). rewrite IH. destruct e as [x vs|x b|s]; cbn; auto.
  - destruct (String.eqb x d) eqn:E; cbn; [now rewrite E|reflexivity].
  - destruct (String.eqb x d) eqn:E; reflexivity.
Qed.
Lemma words_plain evs : words evs = words (filter is_plain evs).
Proof. induction evs as [|e l IH]; [reflexivity|]. cbn. fold (words l). rewrite IH. destruct e; reflexivity. Qed.

Section Ext.
Variables evs evs' : list ev.
Hypothesis R : regrouped evs evs'.
Lemma stored_ext d : stored evs d = stored evs' d.
Proof. destruct R as (A & _). now rewrite stored_about, A, <- stored_about. Qed.
Lemma flagged_ext d : flagged evs d = flagged evs' d.
Proof. destruct R as (A & _). now rewrite flagged_about, A, <- flagged_about. Qed.
Lemma appended_ext d : appended evs d = appended evs' d.
Proof. destruct R as (A & _). now rewrite appended_about, A, <- appended_about. Qed.
Lemma words_ext : words evs = words evs'.
Proof. destruct R as (_ & B). now rewrite words_plain, B, <- words_plain. Qed.
End Ext.

Lemma command_ext A ds tb (body : list ev -> outcome A) t1 t2 e1 e2 : table_ok (help :: ds) tb ->
  (forall a b, regrouped a b -> body a = body b) -> line tb t1 e1 -> line tb t2 e2 -> regrouped e1 e2 -> command ds body t1 = command ds body t2.
Proof.
  intros T B L1 L2 R. unfold command. apply (scan_iff T) in L1, L2. rewrite L1, L2, (flagged_ext R), (B _ _ R). reflexivity.
Qed.
Ltac ext := let R := fresh "R" in intros ? ? R; unfold input_of, one, needed, two, three, truth;
  repeat first [rewrite (words_ext R) | rewrite (stored_ext R) | rewrite (flagged_ext R) | rewrite (appended_ext R)]; reflexivity.

Section Order.
Variables (there : string -> bool) (t1 t2 : list string) (e1 e2 : list ev).
Hypothesis R : regrouped e1 e2.
Lemma suplat_order : line t_suplat t1 e1 -> line t_suplat t2 e2 -> suplat_cmd there t1 = suplat_cmd there t2.
Proof. intros L1 L2. refine (command_ext ok_suplat _ L1 L2 R). ext. Qed.
Lemma ocumaker_order : line t_ocumaker t1 e1 -> line t_ocumaker t2 e2 -> ocumaker_cmd there t1 = ocumaker_cmd there t2.
Proof. intros L1 L2. refine (command_ext ok_ocumaker _ L1 L2 R). ext. Qed.
Lemma ocubiter_order : line t_ocubiter t1 e1 -> line t_ocubiter t2 e2 -> ocubiter_cmd there t1 = ocubiter_cmd there t2.
Proof. intros L1 L2. refine (command_ext ok_ocubiter _ L1 L2 R). ext. Qed.
Lemma ocutenter_order : line t_ocutenter t1 e1 -> line t_ocutenter t2 e2 -> ocutenter_cmd there t1 = ocutenter_cmd there t2.
Proof. intros L1 L2. refine (command_ext ok_ocutenter _ L1 L2 R). ext. Qed.
Lemma ocumakert_order : line t_ocumakert t1 e1 -> line t_ocumakert t2 e2 -> ocumakert_cmd there t1 = ocumakert_cmd there t2.
Proof. intros L1 L2. refine (command_ext ok_ocumakert _ L1 L2 R). ext. Qed.
Lemma atclear_order : line t_atclear t1 e1 -> line t_atclear t2 e2 -> atclear_cmd there t1 = atclear_cmd there t2.
Proof. intros L1 L2. refine (command_ext ok_atclear _ L1 L2 R). ext. Qed.
Lemma perturb_order : line t_perturb t1 e1 -> line t_perturb t2 e2 -> perturb_cmd there t1 = perturb_cmd there t2.
Proof. intros L1 L2. refine (command_ext ok_perturb _ L1 L2 R). ext. Qed.
Lemma supcell_order : line t_supcell t1 e1 -> line t_supcell t2 e2 -> supcell_cmd there t1 = supcell_cmd there t2.
Proof. intros L1 L2. refine (command_ext ok_supcell _ L1 L2 R). ext. Qed.
Lemma pcell_order : line t_pcell t1 e1 -> line t_pcell t2 e2 -> pcell_cmd there t1 = pcell_cmd there t2.
Proof. intros L1 L2. refine (command_ext ok_pcell _ L1 L2 R). ext. Qed.
End Order.

Lemma plain_tests f : plain f -> String.eqb f "--" = false /\ dashed f = false.
Proof.
  intros [->|[->|(c & r & -> & N)]]; [split; reflexivity|split; reflexivity|]. split; [apply String.eqb_neq; congruence|].
  cbn. destruct r; auto. now apply Ascii.eqb_neq.
Qed.
Lemma scan_plain ds f : plain f -> scan ds [f] None = Some [Pos f].
Proof. intros P. destruct (plain_tests P) as (E & D). cbn [scan]. now rewrite E, D. Qed.

(** the group *)
Lemma group_called A (cmds : list (string * (list string -> outcome A))) argv c : group cmds argv = Called c ->
  exists name toks cmd, (argv = name :: toks \/ argv = "--" :: name :: toks) /\ In (name, cmd) cmds /\ cmd toks = Called c.
Proof.
  unfold group. destruct argv as [|t r]; [discriminate|].
  assert (G : forall l s x, group_scan l s = Some (false, x) -> s = false /\ (l = x \/ l = "--" :: x)).
  { induction l as [|a l IH]; cbn; intros s x; [intros [= -> <-]; auto|]. destruct (String.eqb_spec a "--") as [->|]; [intros [= -> <-]; auto|].
    destruct (dashed a); [|intros [= -> <-]; auto]. destruct (word_opts group_decls a) as [[[|] [|]]|]; try discriminate. intros H. apply IH in H as (H & _). discriminate. }
  destruct (group_scan (t :: r) false) as [[[|] [|name toks]]|] eqn:S; try discriminate. destruct (G _ _ _ S) as (_ & E).
  assert (P : forall l x, pick l name = Some x -> In (name, x) (l : list (string * (list string -> outcome A)))).
  { induction l as [|[n y] l IH]; cbn; intros x; [discriminate|]. destruct (String.eqb_spec name n); [intros [= <-]; subst; auto|auto]. }
  destruct (pick cmds name) as [cmd|] eqn:K; [|discriminate]. intros H. exists name, toks, cmd. split; [exact E|]. split; [now apply P|exact H].
Qed.
