(** The commands: what each line calls. *)
From Coq Require Import String Ascii.
From Verif Require Import Base BaseQ LBase MText MOpt SOpt LOpt LOpt2.
Set Implicit Arguments.
Unset Strict Implicit.
Open Scope string_scope.
Open Scope list_scope.
Notation length := List.length.

Ltac conv := first [apply input_iff | apply (one_iff int_iff) | apply (one_iff float_iff) | apply (one_iff (choice_iff _))
  | apply (maybe_iff str_iff) | apply (maybe_iff int_iff) | apply (maybe_iff float_iff) | apply (needed_iff str_iff)
  | apply (two_iff str_iff) | apply (two_iff int_iff) | apply (three_iff int_iff) | apply pairs_iff].
Ltac fwd T := let H := fresh "H" in let evs := fresh "evs" in let L := fresh "L" in let N := fresh "N" in let B := fresh "B" in
  intros H; apply (command_iff _ _ _ T) in H as (evs & L & N & B); cbv beta in B;
  repeat (apply ask_iff in B as (? & ? & B)); injection B as <-; exists evs; repeat match goal with |- exists _, _ => eexists end;
  split; [reflexivity|]; split; [split; [exact L|split; [exact N|conv; eassumption]]|];
  repeat match goal with |- _ /\ _ => split end; first [conv; eassumption | now apply truth_iff].
Ltac bwd T := let H := fresh "H" in let evs := fresh "evs" in intros (evs & H); decompose [ex and] H; clear H; subst;
  repeat match goal with H : switch _ _ _ _ |- _ => apply truth_iff in H; subst end;
  match goal with H : spoken _ _ _ _ _ |- _ => destruct H as (? & ? & ?) end;
  apply (command_iff _ _ _ T); exists evs; split; [eassumption|split; [eassumption|]]; cbv beta;
  repeat (apply ask_iff; eexists; split; [conv; eassumption|]); reflexivity.

Section Cmds.
Variable there : string -> bool.
Lemma suplat_iff toks c : suplat_cmd there toks = Called c <->
  exists evs f com v ld mode, c = Suplat f com v ld mode /\ spoken t_suplat there toks evs f /\
    optional evs "comment" text com /\ single evs "volumn" whole 1%Z v /\ switch evs "ld" false ld /\ single evs "outmode" (among ["vasp"; "yaml"]) "yaml" mode.
Proof. unfold suplat_cmd. split; [fwd ok_suplat|bwd ok_suplat]. Qed.
Lemma ocumaker_iff toks c : ocumaker_cmd there toks = Called c <->
  exists evs f com ele sp n trs refined mode, c = Ocumaker f com ele sp n trs refined mode /\ spoken t_ocumaker there toks evs f /\
    optional evs "comment" text com /\ optional evs "element" text ele /\ optional evs "speckle" text sp /\ optional evs "nspeckle" whole n /\ every "trs" evs trs /\ switch evs "refined" true refined /\ single evs "outmode" (among ["vasp"; "yaml"]) "vasp" mode.
Proof. unfold ocumaker_cmd. split; [fwd ok_ocumaker|bwd ok_ocumaker]. Qed.
Lemma ocubiter_iff toks c : ocubiter_cmd there toks = Called c <->
  exists evs f com ele sp n trs refined mode mpr, c = Ocubiter f com ele sp n trs refined mode mpr /\ spoken t_ocubiter there toks evs f /\
    optional evs "comment" text com /\ optional evs "element" text ele /\ optional evs "speckle" text sp /\ optional evs "nspeckle" whole n /\ every "trs" evs trs /\ switch evs "refined" true refined /\ single evs "outmode" (among ["vasp"; "yaml"]) "vasp" mode /\ switch evs "mpr" true mpr.
Proof. unfold ocubiter_cmd. split; [fwd ok_ocubiter|bwd ok_ocubiter]. Qed.
Lemma ocutenter_iff toks c : ocutenter_cmd there toks = Called c <->
  exists evs f com ele sp n zoom trs refined mode mpr, c = Ocutenter f com ele sp n zoom trs refined mode mpr /\ spoken t_ocutenter there toks evs f /\
    optional evs "comment" text com /\ optional evs "element" text ele /\ couple evs "speckle" text sp /\ couple evs "nspeckle" whole n /\ optional evs "zoom" number zoom /\ every "trs" evs trs /\ switch evs "refined" true refined /\ single evs "outmode" (among ["vasp"; "yaml"]) "vasp" mode /\ switch evs "mpr" true mpr.
Proof. unfold ocutenter_cmd. split; [fwd ok_ocutenter|bwd ok_ocutenter]. Qed.
Lemma ocumakert_iff toks c : ocumakert_cmd there toks = Called c <->
  exists evs f com ele sp zoom trs refined mode, c = Ocumakert f com ele sp zoom trs refined mode /\ spoken t_ocumakert there toks evs f /\
    optional evs "comment" text com /\ optional evs "element" text ele /\ couple evs "speckle" text sp /\ optional evs "zoom" number zoom /\ every "trs" evs trs /\ switch evs "refined" true refined /\ single evs "outmode" (among ["vasp"; "yaml"]) "vasp" mode.
Proof. unfold ocumakert_cmd. split; [fwd ok_ocumakert|bwd ok_ocumakert]. Qed.
Lemma atclear_iff toks c : atclear_cmd there toks = Called c <->
  exists evs f cen r ele refined, c = Atclear f cen r ele refined /\ spoken t_atclear there toks evs f /\
    required evs "cenele" text cen /\ single evs "radius" number 0%Qc r /\ required evs "ele" text ele /\ switch evs "refined" true refined.
Proof. unfold atclear_cmd. split; [fwd ok_atclear|bwd ok_atclear]. Qed.
Lemma perturb_iff toks c : perturb_cmd there toks = Called c <->
  exists evs f r, c = Perturb f r /\ spoken t_perturb there toks evs f /\
    single evs "radius" number 0%Qc r.
Proof. unfold perturb_cmd. split; [fwd ok_perturb|bwd ok_perturb]. Qed.
Lemma supcell_iff toks c : supcell_cmd there toks = Called c <->
  exists evs f scale mode, c = Supcell f scale mode /\ spoken t_supcell there toks evs f /\
    triple evs "scale" whole scale /\ single evs "outmode" (among ["vasp"; "yaml"; "stdio"]) "stdio" mode.
Proof. unfold supcell_cmd. split; [fwd ok_supcell|bwd ok_supcell]. Qed.
Lemma pcell_iff toks c : pcell_cmd there toks = Called c <->
  exists evs f mode, c = Pcell f mode /\ spoken t_pcell there toks evs f /\
    single evs "outmode" (among ["vasp"; "yaml"; "stdio"]) "stdio" mode.
Proof. unfold pcell_cmd. split; [fwd ok_pcell|bwd ok_pcell]. Qed.
End Cmds.
