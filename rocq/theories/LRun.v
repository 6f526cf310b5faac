(** From the words of a line to the run. *)
From Coq Require Import String.
From Verif Require Import Base BaseQ LQ MElement SElement LElement SGeneralCell MGeneralCell MIO MCli SCliArgs LCli2 LCliArgs MOpt SOpt LOpt LOpt2 LOpt3 LOpt4 LOpt5 POpt PCliArgs SRun.
Set Implicit Arguments.
Unset Strict Implicit.
Open Scope string_scope.
Open Scope list_scope.
Notation length := List.length.

Lemma aba_named there name toks argv : In name ["suplat"; "ocumaker"; "ocubiter"; "ocutenter"; "ocumakert"] -> names_command argv name toks ->
  aba_line there argv = aba_line there (name :: toks).
Proof. intros I [-> | ->]; [reflexivity|]. cbn in I. repeat (destruct I as [<-|I]; [reflexivity|]). destruct I. Qed.
Lemma ati_named there name toks argv : In name ["atclear"; "perturb"; "supcell"; "pcell"] -> names_command argv name toks ->
  ati_line there argv = ati_line there (name :: toks).
Proof. intros I [-> | ->]; [reflexivity|]. cbn in I. repeat (destruct I as [<-|I]; [reflexivity|]). destruct I. Qed.

Definition there_in (fs : files) (ds : string -> bool) : string -> bool := fun p => match fs p with Some _ => true | None => ds p end.
Lemma asks_spoken name tb fs ds argv evs f : asks name tb fs ds argv evs f -> exists toks, names_command argv name toks /\ spoken tb (there_in fs ds) toks evs f.
Proof.
  intros (toks & N & L & H & X & P). exists toks. split; [exact N|]. split; [exact L|]. split; [exact H|]. split; [|exact P].
  unfold there_in. destruct (fs f); [reflexivity|]. destruct X as [X|X]; [congruence|exact X].
Qed.
Lemma same_input (evs : list ev) f f' : (exists l1 l2, evs = l1 ++ Pos f :: l2 /\ forall t, ~ In (Pos t) (l1 ++ l2)) ->
  (exists l1 l2, evs = l1 ++ Pos f' :: l2 /\ forall t, ~ In (Pos t) (l1 ++ l2)) -> f = f'.
Proof.
  intros (l1 & l2 & E & N) (m1 & m2 & E' & N'). subst evs.
  assert (I : In (Pos f') (l1 ++ Pos f :: l2)) by (rewrite E'; apply in_or_app; right; now left).
  apply in_app_or in I as [I|[I|I]]; [exfalso; apply (N f'), in_or_app; auto|congruence|exfalso; apply (N f'), in_or_app; auto].
Qed.
Lemma spoken_once tb there toks e1 e2 f1 f2 : In tb [t_suplat; t_ocumaker; t_ocubiter; t_ocutenter; t_ocumakert; t_atclear; t_perturb; t_supcell; t_pcell] ->
  spoken tb there toks e1 f1 -> spoken tb there toks e2 f2 -> e1 = e2 /\ f1 = f2.
Proof.
  intros I (L1 & _ & _ & P1) (L2 & _ & _ & P2). assert (E : e1 = e2) by (eapply C99_unambiguous; eauto). subst e2. split; [reflexivity|]. eapply same_input; eauto.
Qed.

Lemma settled_zoom zoom d z : settled zoom (d_zoom d) 1%Qc z <-> z = zoom_or zoom d.
Proof.
  unfold zoom_or. split.
  - intros [x -> | x -> -> | -> ->]; reflexivity.
  - intros ->. destruct zoom as [x|]; [now apply by_word|]. destruct (d_zoom d) as [x|]; [now apply by_doc|now apply by_default].
Qed.
Lemma settled_comment com d s : settled com (d_comment d) "default" s <-> s = comment_or_default com d.
Proof.
  unfold comment_or_default. split.
  - intros [x -> | x -> -> | -> ->]; reflexivity.
  - intros ->. destruct com as [x|]; [now apply by_word|]. destruct (d_comment d) as [x|]; [now apply by_doc|now apply by_default].
Qed.
Lemma ternary_app_iff d com ele sp (counts : res unit) zoom trs refined mode mpr a :
  ternary_app d com ele sp counts zoom trs refined mode mpr = Ok a <->
  counts = Ok tt /\ sp = Some (t_s1 a, t_s2 a) /\ t_mpr a = mpr /\ exists lat pos nums z, d_lattice d = Some lat /\ d_positions d = Some pos /\ d_numbers d = Some nums /\ settled zoom (d_zoom d) 1%Qc z /\
    GeneralCell_new (vmap (vscale z) lat) pos nums = Ok (t_cell a) /\ settled com (d_comment d) "default" (t_comment a) /\
    element_chosen nums ele (t_ele a) /\ t_size a = count_occ Z.eq_dec nums (t_ele a) /\ t_tr a = List.hd_error trs /\ t_refined a = refined /\ t_outmode a = mode.
Proof.
  unfold ternary_app. split.
  - destruct (d_lattice d) as [lat|]; [|discriminate]. cbn [key bind]. destruct (d_positions d) as [pos|]; [|discriminate]. cbn [key bind].
    destruct (d_numbers d) as [nums|]; [|discriminate]. cbn [key bind]. destruct (GeneralCell_new _ pos nums) as [g|] eqn:EG; [|discriminate]. cbn [bind].
    destruct (target nums ele); [|discriminate]. cbn [bind]. destruct sp as [s|]; [|discriminate]. cbn [unpack bind]. destruct counts as [[]|]; [|discriminate]. cbn [bind].
    intros E. apply C86_ternary_arguments in E as (E1 & E2 & E3 & E4 & E5 & E6 & E7 & E8 & E9 & E10).
    split; [reflexivity|]. split; [destruct s; cbn in E5, E6; congruence|]. split; [exact E10|]. exists lat, pos, nums, (zoom_or zoom d).
    repeat (split; [reflexivity|]). split; [now apply settled_zoom|]. split; [exact E1|]. split; [now apply settled_comment|]. auto.
  - intros (-> & -> & EM & lat & pos & nums & z & -> & -> & -> & SZ & G & SC & EC & SI & TR & RF & OM). cbn [key bind]. apply settled_zoom in SZ. subst z. apply settled_comment in SC.
    assert (K : Tapp_new lat pos nums (zoom_or zoom d) (comment_or_default com d) ele (t_s1 a) (t_s2 a) trs refined mode mpr = Ok a) by (apply C86_ternary_arguments; auto 15).
    pose proof (proj1 (bind_ok _ _ _) K) as (g & EG & K'). rewrite EG. cbn [bind]. apply bind_ok in K' as (t & ET & _). rewrite ET. exact K.
Qed.

(** No help is shown for a line that does not ask for it. *)
Lemma names_once argv n t n' t' : n <> "--" -> n' <> "--" -> names_command argv n t -> names_command argv n' t' -> n = n' /\ t = t'.
Proof. intros D D' [-> | ->] [E|E]; injection E; intros; subst; split; congruence. Qed.
Lemma not_shown cmds name tb toks evs argv : In (name, tb) cmds -> (forall n t, In (n, t) cmds -> n <> "--" /\ n <> "--help" /\ n <> "--version" /\ (forall t', In (n, t') cmds -> t = t')) ->
  (forall n t, In (n, t) cmds -> In t [t_suplat; t_ocumaker; t_ocubiter; t_ocutenter; t_ocumakert; t_atclear; t_perturb; t_supcell; t_pcell]) ->
  names_command argv name toks -> line tb toks evs -> no_help evs -> ~ asks_help cmds argv.
Proof.
  intros I CN CT N L H [-> | [(ws & r & E & NE & F & _) | (n & t & toks' & evs' & I' & N' & L' & H')]].
  - destruct N as [N|N]; discriminate.
  - destruct ws as [|w ws]; [congruence|]. inversion F as [|? ? W _]; subst. destruct (CN _ _ I) as (D1 & D2 & D3 & _).
    destruct N as [N|N]; injection N as -> _; destruct W as [W|W]; congruence.
  - destruct (CN _ _ I) as (D1 & _ & _ & U). destruct (CN _ _ I') as (D1' & _). destruct (names_once D1 D1' N N') as [<- <-].
    rewrite <- (U _ I') in L'. apply H'. rewrite <- (@C99_unambiguous _ _ _ _ (CT _ _ I) L L'). exact H.
Qed.
Lemma aba_not_shown name tb fs ds argv evs f : In (name, tb) runaba_commands -> asks name tb fs ds argv evs f -> aba_line (there_in fs ds) argv <> Shown.
Proof.
  intros I (toks & N & L & H & _) S. apply C99_help_runaba in S. revert S. eapply not_shown; [exact I| | |exact N|exact L|exact H]; clear; intros n t I; cbn in I;
    repeat (destruct I as [[= <- <-]|I]; [try (split; [discriminate|]; split; [discriminate|]; split; [discriminate|]; intros t' I; cbn in I; intuition congruence); cbn; tauto|]); destruct I.
Qed.
Lemma ati_not_shown name tb fs ds argv evs f : In (name, tb) runati_commands -> asks name tb fs ds argv evs f -> ati_line (there_in fs ds) argv <> Shown.
Proof.
  intros I (toks & N & L & H & _) S. apply C99_help_runati in S. revert S. eapply not_shown; [exact I| | |exact N|exact L|exact H]; clear; intros n t I; cbn in I;
    repeat (destruct I as [[= <- <-]|I]; [try (split; [discriminate|]; split; [discriminate|]; split; [discriminate|]; intros t' I; cbn in I; intuition congruence); cbn; tauto|]); destruct I.
Qed.
