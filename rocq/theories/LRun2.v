(** From the words of a line to the run: the commands one by one. *)
From Coq Require Import String Permutation.
From Verif Require Import Base BaseQ LQ MElement SElement LElement SLattice SGeneralCell MGeneralCell MHnf MIO SIO MModCell SModCell SShape SCli MCli SCliOne SCliRead SCliArgs LCli2 LCliArgs MOpt SOpt LOpt LOpt2 LOpt3 LOpt4 LOpt5 POpt PCliArgs PCli2 PCli3 PCli5 SRun LRun.
Set Implicit Arguments.
Unset Strict Implicit.
Open Scope string_scope.
Open Scope list_scope.
Notation length := List.length.

Lemma spoken_same tb there toks e1 e2 f1 f2 : spoken tb there toks e1 f1 -> spoken tb there toks e2 f2 ->
  In tb [t_suplat; t_ocumaker; t_ocubiter; t_ocutenter; t_ocumakert; t_atclear; t_perturb; t_supcell; t_pcell] -> e1 = e2 /\ f1 = f2.
Proof. intros S1 S2 I. exact (spoken_once I S1 S2). Qed.
Ltac here := cbn; tauto.

Section Runaba.
Context (spg : gcell -> list symop) (wy : gcell -> list string) (psize : mat Qc * list (vec Qc) * list Z -> nat)
  (std : mat Qc * list (vec Qc) * list Z -> mat Qc * list (vec Qc) * list Z) (h : list Z -> Z) (dump : ydoc -> string) (load : string -> res ydoc)
  (ls : string -> res sdoc) (cbrt : Qc -> Qc) (gen3 gen2 : gcell -> Z -> res (list slcell)) (cwd rd : string) (suffix : nat -> string) (tmp : files -> string -> string -> string).
Notation run := (runaba spg wy psize std h dump load ls cbrt gen3 gen2 cwd rd suffix tmp).


Lemma runaba_eq argv fs ds : run argv fs ds = match aba_line (there_in fs ds) argv with Usage => Usage | Shown => Shown
  | Called c => Called (aba_body spg wy psize std h dump load ls cbrt gen3 gen2 cwd rd suffix tmp c fs ds) end.
Proof. reflexivity. Qed.
Lemma aba_begin name tb fs ds argv evs f : asks name tb fs ds argv evs f -> In (name, tb) runaba_commands ->
  exists toks, spoken tb (there_in fs ds) toks evs f /\
    (forall c, aba_line (there_in fs ds) (name :: toks) = Called c -> run argv fs ds = Called (aba_body spg wy psize std h dump load ls cbrt gen3 gen2 cwd rd suffix tmp c fs ds)) /\
    ((forall c, aba_line (there_in fs ds) (name :: toks) = Called c -> exists e, aba_body spg wy psize std h dump load ls cbrt gen3 gen2 cwd rd suffix tmp c fs ds = mkOut fs ds (Some e)) ->
     untouched fs ds (run argv fs ds)).
Proof.
  intros A I. pose proof (aba_not_shown I A) as NS. destruct (asks_spoken A) as (toks & N & SP). exists toks. split; [exact SP|].
  assert (E : aba_line (there_in fs ds) argv = aba_line (there_in fs ds) (name :: toks)).
  { apply aba_named; [|exact N]. clear -I. cbn in I. cbn. repeat (destruct I as [[= <- _]|I]; [tauto|]). destruct I. }
  rewrite runaba_eq, E in *. split; [intros c ->; reflexivity|]. intros H. destruct (aba_line (there_in fs ds) (name :: toks)) as [| |c]; [now left|congruence|].
  right. destruct (H c eq_refl) as (e & He). exists e. now rewrite He.
Qed.

(** ocubiter *)
Lemma ocubiter_runs argv fs ds evs f u a : asks "ocubiter" t_ocubiter fs ds argv evs f -> from_file load cbrt (Some f) None fs = Ok u -> Forall supported (numbers u) ->
  ocubiter_settings u evs a -> run argv fs ds = Called (biter_run spg wy psize std h dump a cwd rd suffix fs ds).
Proof.
  intros A R S ((com & ele & sp & trs & O1 & O2 & O3 & O4 & C1 & C2 & C3 & C4 & C5 & C6 & C7) & M & n & O5 & CN). destruct (@aba_begin _ _ _ _ _ _ _ A ltac:(here)) as (toks & SP & B & _).
  rewrite (B (Ocubiter f com ele sp n trs (a_refined a) (a_outmode a) (a_mpr a))).
  - cbn [aba_body]. rewrite R. cbn [bind]. rewrite (proj2 (C86_ocubiter_arguments u com ele sp n trs (a_refined a) (a_outmode a) (a_mpr a) a S)); [reflexivity|]. auto 15.
  - apply C99_ocubiter. exists evs, f, com, ele, sp, n, trs, (a_refined a), (a_outmode a), (a_mpr a). auto 15.
Qed.
Lemma ocubiter_stops argv fs ds evs f : asks "ocubiter" t_ocubiter fs ds argv evs f ->
  (forall u, from_file load cbrt (Some f) None fs = Ok u -> Forall supported (numbers u) /\ forall a, ~ ocubiter_settings u evs a) -> untouched fs ds (run argv fs ds).
Proof.
  intros A NA. destruct (@aba_begin _ _ _ _ _ _ _ A ltac:(here)) as (toks & SP & _ & B). apply B. clear B. intros c EL.
  apply C99_ocubiter in EL as (evs' & f' & com & ele & sp & n & trs & refined & mode & mpr & -> & SP' & O1 & O2 & O3 & O4 & O5 & O6 & O7 & O8).
  destruct (spoken_same SP SP' ltac:(here)) as [<- <-]. cbn [aba_body]. destruct (from_file load cbrt (Some f) None fs) as [u|e]; cbn [bind]; [|now exists e].
  destruct (biter_new u com ele sp n trs refined mode mpr) as [a|e] eqn:EA; [|now exists e]. exfalso. destruct (NA u eq_refl) as (S & NA'). apply (NA' a).
  apply C86_ocubiter_arguments in EA; [|exact S]. destruct EA as (A1 & A2 & A3 & A4 & A5 & A6 & A7 & A8 & A9). subst refined mode mpr. split; [|split; [exact O8|eauto]].
  exists com, ele, sp, trs. auto 15.
Qed.

(** ocumaker *)
Lemma ocumaker_runs argv fs ds evs f u a : asks "ocumaker" t_ocumaker fs ds argv evs f -> from_file load cbrt (Some f) None fs = Ok u -> Forall supported (numbers u) ->
  ocumaker_settings u evs a -> run argv fs ds = Called (maker_run spg wy psize std h dump a cwd rd suffix fs ds).
Proof.
  intros A R S ((com & ele & sp & trs & O1 & O2 & O3 & O4 & C1 & C2 & C3 & C4 & C5 & C6 & C7) & M & n & O5 & CN). destruct (@aba_begin _ _ _ _ _ _ _ A ltac:(here)) as (toks & SP & B & _).
  rewrite (B (Ocumaker f com ele sp n trs (a_refined a) (a_outmode a))).
  - cbn [aba_body]. rewrite R. cbn [bind]. rewrite (proj2 (C86_ocumaker_arguments u com ele sp n trs (a_refined a) (a_outmode a) a S)); [reflexivity|]. auto 15.
  - apply C99_ocumaker. exists evs, f, com, ele, sp, n, trs, (a_refined a), (a_outmode a). auto 15.
Qed.
Lemma ocumaker_stops argv fs ds evs f : asks "ocumaker" t_ocumaker fs ds argv evs f ->
  (forall u, from_file load cbrt (Some f) None fs = Ok u -> Forall supported (numbers u) /\ forall a, ~ ocumaker_settings u evs a) -> untouched fs ds (run argv fs ds).
Proof.
  intros A NA. destruct (@aba_begin _ _ _ _ _ _ _ A ltac:(here)) as (toks & SP & _ & B). apply B. clear B. intros c EL.
  apply C99_ocumaker in EL as (evs' & f' & com & ele & sp & n & trs & refined & mode & -> & SP' & O1 & O2 & O3 & O4 & O5 & O6 & O7).
  destruct (spoken_same SP SP' ltac:(here)) as [<- <-]. cbn [aba_body]. destruct (from_file load cbrt (Some f) None fs) as [u|e]; cbn [bind]; [|now exists e].
  destruct (maker_new u com ele sp n trs refined mode) as [a|e] eqn:EA; [|now exists e]. exfalso. destruct (NA u eq_refl) as (S & NA'). apply (NA' a).
  apply C86_ocumaker_arguments in EA; [|exact S]. destruct EA as (A1 & A2 & A3 & A4 & A5 & A6 & A7 & A8 & A9). subst refined mode. split; [|split; [exact A9|eauto]].
  exists com, ele, sp, trs. auto 15.
Qed.

(** suplat *)
Lemma suplat_runs argv fs ds evs f u a : asks "suplat" t_suplat fs ds argv evs f -> from_file load cbrt (Some f) None fs = Ok u ->
  suplat_settings psize gen3 gen2 u evs a -> run argv fs ds = Called (suplat_run std dump a cwd suffix fs ds).
Proof.
  intros A R (P & V & O & (ld & L & G) & com & C & EC). destruct (@aba_begin _ _ _ _ _ _ _ A ltac:(here)) as (toks & SP & B & _).
  rewrite (B (Suplat f com (s_v a) ld (s_outmode a))).
  - cbn [aba_body]. rewrite R. cbn [bind]. rewrite (proj2 (C86_suplat_arguments psize (if ld then gen2 else gen3) u com (s_v a) (s_outmode a) a)); [reflexivity|]. auto.
  - apply C99_suplat. exists evs, f, com, (s_v a), ld, (s_outmode a). auto 10.
Qed.
Lemma suplat_stops argv fs ds evs f : asks "suplat" t_suplat fs ds argv evs f ->
  (forall u a, from_file load cbrt (Some f) None fs = Ok u -> ~ suplat_settings psize gen3 gen2 u evs a) -> untouched fs ds (run argv fs ds).
Proof.
  intros A NA. destruct (@aba_begin _ _ _ _ _ _ _ A ltac:(here)) as (toks & SP & _ & B). apply B. clear B. intros c EL.
  apply C99_suplat in EL as (evs' & f' & com & v & ld & mode & -> & SP' & O1 & O2 & O3 & O4).
  destruct (spoken_same SP SP' ltac:(here)) as [<- <-]. cbn [aba_body]. destruct (from_file load cbrt (Some f) None fs) as [u|e]; cbn [bind]; [|now exists e].
  destruct (suplat_new psize (if ld then gen2 else gen3) u com v mode) as [a|e] eqn:EA; [|now exists e]. exfalso. apply (NA u a eq_refl).
  apply C86_suplat_arguments in EA as (A1 & A2 & A3 & A4 & A5). subst v mode. split; [exact A1|]. split; [exact O2|]. split; [exact O4|]. split; [now exists ld|]. now exists com.
Qed.

(** ocutenter, ocumakert *)
Lemma ocutenter_runs argv fs ds evs f t d a n1 n2 : asks "ocutenter" t_ocutenter fs ds argv evs f -> fs f = Some t -> ls t = Ok d ->
  ternary_settings d evs a -> switch evs "mpr" true (t_mpr a) -> couple evs "nspeckle" whole (Some (n1, n2)) ->
  run argv fs ds = Called (tenter_run spg wy psize std h dump a n1 n2 cwd rd tmp fs ds).
Proof.
  intros A F R (com & ele & trs & zoom & lat & pos & nums & z & O1 & O2 & O3 & O4 & O5 & E1 & E2 & E3 & SZ & G & SC & EC & SI & TR & RF & OM) M NS.
  destruct (@aba_begin _ _ _ _ _ _ _ A ltac:(here)) as (toks & SP & B & _).
  rewrite (B (Ocutenter f com ele (Some (t_s1 a, t_s2 a)) (Some (n1, n2)) zoom trs (t_refined a) (t_outmode a) (t_mpr a))).
  - cbn [aba_body]. unfold settings_of. rewrite F, R. cbn [bind unpack].
    rewrite (proj2 (@ternary_app_iff d com ele (Some (t_s1 a, t_s2 a)) (Ok tt) zoom trs (t_refined a) (t_outmode a) (t_mpr a) a)); [reflexivity|].
    split; [reflexivity|]. split; [reflexivity|]. split; [reflexivity|]. exists lat, pos, nums, z. auto 15.
  - apply C99_ocutenter. exists evs, f, com, ele, (Some (t_s1 a, t_s2 a)), (Some (n1, n2)), zoom, trs, (t_refined a), (t_outmode a), (t_mpr a). auto 15.
Qed.
Lemma ocutenter_stops argv fs ds evs f : asks "ocutenter" t_ocutenter fs ds argv evs f ->
  (forall t d a n1 n2, fs f = Some t -> ls t = Ok d -> switch evs "mpr" true (t_mpr a) -> couple evs "nspeckle" whole (Some (n1, n2)) -> ~ ternary_settings d evs a) ->
  untouched fs ds (run argv fs ds).
Proof.
  intros A NA. destruct (@aba_begin _ _ _ _ _ _ _ A ltac:(here)) as (toks & SP & _ & B). apply B. clear B. intros c EL.
  apply C99_ocutenter in EL as (evs' & f' & com & ele & sp & n & zoom & trs & refined & mode & mpr & -> & SP' & O1 & O2 & O3 & O4 & O5 & O6 & O7 & O8 & O9).
  destruct (spoken_same SP SP' ltac:(here)) as [<- <-]. cbn [aba_body]. unfold settings_of.
  destruct (fs f) as [t|]; cbn [bind]; [|now eexists]. destruct (ls t) as [d|e] eqn:R; cbn [bind]; [|now exists e].
  destruct (ternary_app d com ele sp (bind (unpack n) (fun _ => Ok tt)) zoom trs refined mode mpr) as [a|e] eqn:EA; cbn [bind]; [|now exists e].
  destruct n as [[n1 n2]|]; cbn [unpack bind] in EA |- *; [|now eexists]. exfalso.
  apply ternary_app_iff in EA as (_ & -> & EM & lat & pos & nums & z & E1 & E2 & E3 & SZ & G & SC & EC & SI & TR & RF & OM). subst refined mode mpr.
  refine (NA t d a n1 n2 eq_refl R O9 O4 _). exists com, ele, trs, zoom, lat, pos, nums, z. auto 20.
Qed.
Lemma ocumakert_runs argv fs ds evs f t d a : asks "ocumakert" t_ocumakert fs ds argv evs f -> fs f = Some t -> ls t = Ok d ->
  ternary_settings d evs a -> t_mpr a = true -> run argv fs ds = Called (makert_run spg wy psize std h dump a cwd rd tmp fs ds).
Proof.
  intros A F R (com & ele & trs & zoom & lat & pos & nums & z & O1 & O2 & O3 & O4 & O5 & E1 & E2 & E3 & SZ & G & SC & EC & SI & TR & RF & OM) M.
  destruct (@aba_begin _ _ _ _ _ _ _ A ltac:(here)) as (toks & SP & B & _).
  rewrite (B (Ocumakert f com ele (Some (t_s1 a, t_s2 a)) zoom trs (t_refined a) (t_outmode a))).
  - cbn [aba_body]. unfold settings_of. rewrite F, R. cbn [bind].
    rewrite (proj2 (@ternary_app_iff d com ele (Some (t_s1 a, t_s2 a)) (Ok tt) zoom trs (t_refined a) (t_outmode a) true a)); [reflexivity|].
    split; [reflexivity|]. split; [reflexivity|]. split; [exact M|]. exists lat, pos, nums, z. auto 15.
  - apply C99_ocumakert. exists evs, f, com, ele, (Some (t_s1 a, t_s2 a)), zoom, trs, (t_refined a), (t_outmode a). auto 15.
Qed.
Lemma ocumakert_stops argv fs ds evs f : asks "ocumakert" t_ocumakert fs ds argv evs f ->
  (forall t d a, fs f = Some t -> ls t = Ok d -> t_mpr a = true -> ~ ternary_settings d evs a) -> untouched fs ds (run argv fs ds).
Proof.
  intros A NA. destruct (@aba_begin _ _ _ _ _ _ _ A ltac:(here)) as (toks & SP & _ & B). apply B. clear B. intros c EL.
  apply C99_ocumakert in EL as (evs' & f' & com & ele & sp & zoom & trs & refined & mode & -> & SP' & O1 & O2 & O3 & O5 & O6 & O7 & O8).
  destruct (spoken_same SP SP' ltac:(here)) as [<- <-]. cbn [aba_body]. unfold settings_of.
  destruct (fs f) as [t|]; cbn [bind]; [|now eexists]. destruct (ls t) as [d|e] eqn:R; cbn [bind]; [|now exists e].
  destruct (ternary_app d com ele sp (Ok tt) zoom trs refined mode true) as [a|e] eqn:EA; cbn [bind]; [|now exists e]. exfalso.
  apply ternary_app_iff in EA as (_ & -> & EM & lat & pos & nums & z & E1 & E2 & E3 & SZ & G & SC & EC & SI & TR & RF & OM). subst refined mode.
  refine (NA t d a eq_refl R EM _). exists com, ele, trs, zoom, lat, pos, nums, z. auto 20.
Qed.
End Runaba.

Section Runati.
Context (std : mat Qc * list (vec Qc) * list Z -> mat Qc * list (vec Qc) * list Z) (dump : ydoc -> string) (load : string -> res ydoc) (cbrt : Qc -> Qc) (fuel : nat) (rnd : list (vec Qc * Qc)).
Notation run := (runati std dump load cbrt fuel rnd).

Lemma runati_eq argv fs ds : run argv fs ds = match ati_line (there_in fs ds) argv with Usage => Usage | Shown => Shown | Called c => Called (ati_body std dump load cbrt fuel rnd c fs) end.
Proof. reflexivity. Qed.
Lemma ati_begin name tb fs ds argv evs f : asks name tb fs ds argv evs f -> In (name, tb) runati_commands ->
  exists toks, spoken tb (there_in fs ds) toks evs f /\
    (forall c, ati_line (there_in fs ds) (name :: toks) = Called c -> run argv fs ds = Called (ati_body std dump load cbrt fuel rnd c fs)) /\
    ((forall c, ati_line (there_in fs ds) (name :: toks) <> Called c) -> run argv fs ds = Usage).
Proof.
  intros A I. pose proof (ati_not_shown I A) as NS. destruct (asks_spoken A) as (toks & N & SP). exists toks. split; [exact SP|].
  assert (E : ati_line (there_in fs ds) argv = ati_line (there_in fs ds) (name :: toks)).
  { apply ati_named; [|exact N]. clear -I. cbn in I. cbn. repeat (destruct I as [[= <- _]|I]; [tauto|]). destruct I. }
  rewrite runati_eq, E in *. split; [intros c ->; reflexivity|]. intros H. destruct (ati_line (there_in fs ds) (name :: toks)) as [| |c]; [reflexivity|congruence|destruct (H c eq_refl)].
Qed.
Lemma destination_mode evs m : destination evs m -> exists mode, single evs "outmode" (among ["vasp"; "yaml"; "stdio"]) "stdio" mode /\ outmode_of mode = m.
Proof.
  intros [[-> H]|(s & -> & D & H)]; [now exists "stdio"|]. exists s. split; [exact H|]. unfold outmode_of. apply String.eqb_neq in D. now rewrite D.
Qed.
Lemma destination_known evs m : destination evs m -> known_mode m.
Proof.
  intros [[-> _]|(s & -> & D & [[_ ->]|(v & _ & -> & I)])]; [exact Logic.I|congruence|]. cbn in I. destruct I as [<-|[<-|[<-|[]]]]; [exists Fvasp; now right|exists Fyaml; now left|congruence].
Qed.
Lemma supcell_runs argv fs ds evs f u a b c m : asks "supcell" t_supcell fs ds argv evs f -> from_file load cbrt (Some f) None fs = Ok u ->
  triple evs "scale" whole (Some (a, b, c)) -> destination evs m -> run argv fs ds = Called (Some (cmd_supcell dump u f (V3 a b c) m fs)).
Proof.
  intros A R T D. destruct (destination_mode D) as (mode & M & <-). destruct (@ati_begin _ _ _ _ _ _ _ A ltac:(here)) as (toks & SP & B & _).
  rewrite (B (Supcell f (Some (a, b, c)) mode)).
  - cbn [ati_body]. rewrite R. reflexivity.
  - apply C99_supcell. exists evs, f, (Some (a, b, c)), mode. auto.
Qed.
Lemma pcell_runs argv fs ds evs f u m : asks "pcell" t_pcell fs ds argv evs f -> from_file load cbrt (Some f) None fs = Ok u ->
  destination evs m -> run argv fs ds = Called (Some (cmd_pcell std dump u f m fs)).
Proof.
  intros A R D. destruct (destination_mode D) as (mode & M & <-). destruct (@ati_begin _ _ _ _ _ _ _ A ltac:(here)) as (toks & SP & B & _).
  rewrite (B (Pcell f mode)).
  - cbn [ati_body]. rewrite R. reflexivity.
  - apply C99_pcell. exists evs, f, mode. auto.
Qed.
Lemma perturb_runs argv fs ds evs f u r : asks "perturb" t_perturb fs ds argv evs f -> from_file load cbrt (Some f) None fs = Ok u ->
  single evs "radius" number 0%Qc r -> run argv fs ds = Called (cmd_perturb dump u f r rnd fs).
Proof.
  intros A R D. destruct (@ati_begin _ _ _ _ _ _ _ A ltac:(here)) as (toks & SP & B & _). rewrite (B (Perturb f r)).
  - cbn [ati_body]. now rewrite R.
  - apply C99_perturb. exists evs, f, r. auto.
Qed.
Lemma atclear_runs argv fs ds evs f u cen r ele refined : asks "atclear" t_atclear fs ds argv evs f -> from_file load cbrt (Some f) None fs = Ok u ->
  required evs "cenele" text cen -> single evs "radius" number 0%Qc r -> required evs "ele" text ele -> switch evs "refined" true refined ->
  run argv fs ds = Called (cmd_atclear std dump fuel u f cen r ele refined fs).
Proof.
  intros A R O1 O2 O3 O4. destruct (@ati_begin _ _ _ _ _ _ _ A ltac:(here)) as (toks & SP & B & _). rewrite (B (Atclear f cen r ele refined)).
  - cbn [ati_body]. now rewrite R.
  - apply C99_atclear. exists evs, f, cen, r, ele, refined. auto 10.
Qed.
(** A file that cannot be read, or a line that does not say what is needed. *)
Lemma ati_unreadable name tb argv fs ds evs f e : In (name, tb) runati_commands -> asks name tb fs ds argv evs f -> from_file load cbrt (Some f) None fs = Raise e ->
  run argv fs ds = Usage \/ run argv fs ds = Called (Some (Raise e)).
Proof.
  intros I A R. destruct (@ati_begin _ _ _ _ _ _ _ A I) as (toks & SP & B & C). destruct (ati_line (there_in fs ds) (name :: toks)) as [| |c] eqn:EL.
  1,2: left; apply C; discriminate. right. rewrite (B _ eq_refl). f_equal. cbn in I. destruct I as [I|[I|[I|[I|[]]]]]; injection I as <- <-.
  - apply C99_atclear in EL as (evs' & f' & cen & r & ele & refined & -> & SP' & _). destruct (spoken_same SP SP' ltac:(here)) as [<- <-]. cbn [ati_body]. now rewrite R.
  - apply C99_perturb in EL as (evs' & f' & r & -> & SP' & _). destruct (spoken_same SP SP' ltac:(here)) as [<- <-]. cbn [ati_body]. now rewrite R.
  - apply C99_supcell in EL as (evs' & f' & s & m & -> & SP' & _). destruct (spoken_same SP SP' ltac:(here)) as [<- <-]. cbn [ati_body]. now rewrite R.
  - apply C99_pcell in EL as (evs' & f' & m & -> & SP' & _). destruct (spoken_same SP SP' ltac:(here)) as [<- <-]. cbn [ati_body]. now rewrite R.
Qed.
Lemma supcell_stops argv fs ds evs f : asks "supcell" t_supcell fs ds argv evs f -> (forall x, ~ triple evs "scale" whole (Some x)) ->
  run argv fs ds = Usage \/ exists e, run argv fs ds = Called (Some (Raise e)).
Proof.
  intros A NT. destruct (@ati_begin _ _ _ _ _ _ _ A ltac:(here)) as (toks & SP & B & C). destruct (ati_line (there_in fs ds) ("supcell" :: toks)) as [| |c] eqn:EL.
  1,2: left; apply C; discriminate. right. rewrite (B _ eq_refl). apply C99_supcell in EL as (evs' & f' & s & m & -> & SP' & T & _).
  destruct (spoken_same SP SP' ltac:(here)) as [<- <-]. destruct s as [x|]; [destruct (NT x T)|]. destruct (C99_incomplete_supcell std dump load cbrt fuel rnd f m fs) as (e & ->). now exists e.
Qed.
(** What is said otherwise than demanded is complained about. *)
Lemma ati_complains name tb argv fs ds evs f : In (name, tb) runati_commands -> asks name tb fs ds argv evs f ->
  (name = "supcell" -> (forall x, ~ triple evs "scale" whole x) \/ forall m, ~ destination evs m) ->
  (name = "pcell" -> forall m, ~ destination evs m) ->
  (name = "perturb" -> forall r, ~ single evs "radius" number 0%Qc r) ->
  (name = "atclear" -> (forall x, ~ required evs "cenele" text x) \/ (forall r, ~ single evs "radius" number 0%Qc r) \/ forall x, ~ required evs "ele" text x) ->
  run argv fs ds = Usage.
Proof.
  intros I A H1 H2 H3 H4. destruct (@ati_begin _ _ _ _ _ _ _ A I) as (toks & SP & B & C). apply C. intros c EL. clear B C.
  assert (DM : forall evs mode, single evs "outmode" (among ["vasp"; "yaml"; "stdio"]) "stdio" mode -> exists m, destination evs m).
  { clear. intros evs mode H. destruct (String.eqb_spec mode "stdio") as [->|D]; [exists None; now left|exists (Some mode); right; now exists mode]. }
  cbn in I. destruct I as [I|[I|[I|[I|[]]]]]; injection I as <- <-.
  - apply C99_atclear in EL as (evs' & f' & cen & r & ele & refined & -> & SP' & O1 & O2 & O3 & _). destruct (spoken_same SP SP' ltac:(here)) as [<- <-].
    destruct (H4 eq_refl) as [H|[H|H]]; eapply H; eassumption.
  - apply C99_perturb in EL as (evs' & f' & r & -> & SP' & O). destruct (spoken_same SP SP' ltac:(here)) as [<- <-]. exact (H3 eq_refl _ O).
  - apply C99_supcell in EL as (evs' & f' & s & m & -> & SP' & T & O). destruct (spoken_same SP SP' ltac:(here)) as [<- <-]. destruct (DM _ _ O) as (m' & D).
    destruct (H1 eq_refl) as [H|H]; eapply H; eassumption.
  - apply C99_pcell in EL as (evs' & f' & m & -> & SP' & O). destruct (spoken_same SP SP' ltac:(here)) as [<- <-]. destruct (DM _ _ O) as (m' & D). exact (H2 eq_refl _ D).
Qed.
End Runati.
