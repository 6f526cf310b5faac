(** What a command line means, independent of how it is scanned: a grammar of the words and
    the tables of the options. *)
From Coq Require Import String Ascii.
From Verif Require Import Base BaseQ MOpt MText.
Set Implicit Arguments.
Open Scope string_scope.

(** An option: long name, letter, parameter, and either a number of values or a truth value. *)
Inductive kind := Values (n : nat) | Truth (b : bool).
Record entry := E { e_long : string; e_short : option ascii; e_dest : string; e_kind : kind }.

(** letters of flags written together *)
Inductive flags (tb : list entry) : string -> list ev -> Prop :=
| fl_nil : flags tb "" []
| fl_cons : forall l c d b s es, In (E l (Some c) d (Truth b)) tb -> flags tb s es ->
    flags tb (String c s) (Flag d b :: es).

(** A word that is no option: empty, a dash, or beginning with another character. *)
Definition plain (t : string) : Prop := t = "" \/ t = "-" \/ exists c r, t = String c r /\ c <> "-"%char.

(** Words that belong together, and what they say. *)
Inductive piece (tb : list entry) : list string -> list ev -> Prop :=
| pc_plain : forall t, plain t -> piece tb [t] [Pos t]
| pc_flag : forall l c d b, In (E l c d (Truth b)) tb -> piece tb ["--" ++ l] [Flag d b]
| pc_long : forall l c d vs, In (E l c d (Values (List.length vs))) tb -> piece tb (("--" ++ l) :: vs) [Given d vs]
| pc_long_eq : forall l c d v vs, In (E l c d (Values (S (List.length vs)))) tb ->
    piece tb (("--" ++ l ++ "=" ++ v) :: vs) [Given d (v :: vs)]
| pc_flags : forall s es, s <> "" -> flags tb s es -> piece tb ["-" ++ s] es
| pc_short : forall s es l c d vs, flags tb s es -> In (E l (Some c) d (Values (List.length vs))) tb ->
    piece tb (("-" ++ s ++ String c "") :: vs) (es ++ [Given d vs])
| pc_glued : forall s es l c d v vs, flags tb s es -> In (E l (Some c) d (Values (S (List.length vs)))) tb -> v <> "" ->
    piece tb (("-" ++ s ++ String c v) :: vs) (es ++ [Given d (v :: vs)]).

(** A line: pieces in any order; after [--] every word is plain. *)
Inductive line (tb : list entry) : list string -> list ev -> Prop :=
| ln_nil : line tb [] []
| ln_end : forall ws, line tb ("--" :: ws) (List.map Pos ws)
| ln_cons : forall ts es tr er, piece tb ts es -> line tb tr er -> line tb (ts ++ tr) (es ++ er).

(** *** Reading the parameters *)
(** nothing is said about a parameter; the last thing said *)
Definition unsaid (evs : list ev) (d : string) : Prop := forall vs, ~ In (Given d vs) evs.
Definition last_said (evs : list ev) (d : string) (vs : list string) : Prop :=
  exists l1 l2, evs = (l1 ++ Given d vs :: l2)%list /\ unsaid l2 d.
Definition unset (evs : list ev) (d : string) : Prop := forall b, ~ In (Flag d b) evs.
Definition last_set (evs : list ev) (d : string) (b : bool) : Prop :=
  exists l1 l2, evs = (l1 ++ Flag d b :: l2)%list /\ unset l2 d.

(** texts and values *)
Definition text (s : string) (x : string) : Prop := x = s.
Definition whole (s : string) (z : Z) : Prop := parse_int s = Ok z.
Definition number (s : string) (q : Qc) : Prop := parse_float s = Ok q.
Definition among (l : list string) (s : string) (x : string) : Prop := x = s /\ In s l.

(** one value or the default *)
Definition single A (evs : list ev) (d : string) (conv : string -> A -> Prop) (dflt x : A) : Prop :=
  (unsaid evs d /\ x = dflt) \/ exists v, last_said evs d [v] /\ conv v x.
(** one value or nothing *)
Definition optional A (evs : list ev) (d : string) (conv : string -> A -> Prop) (x : option A) : Prop :=
  (unsaid evs d /\ x = None) \/ exists v y, last_said evs d [v] /\ conv v y /\ x = Some y.
(** one value that must be there *)
Definition required A (evs : list ev) (d : string) (conv : string -> A -> Prop) (x : A) : Prop :=
  exists v, last_said evs d [v] /\ conv v x.
Definition couple A (evs : list ev) (d : string) (conv : string -> A -> Prop) (x : option (A * A)) : Prop :=
  (unsaid evs d /\ x = None) \/ exists v w y z, last_said evs d [v; w] /\ conv v y /\ conv w z /\ x = Some (y, z).
Definition triple A (evs : list ev) (d : string) (conv : string -> A -> Prop) (x : option (A * A * A)) : Prop :=
  (unsaid evs d /\ x = None) \/
  exists u v w p q r, last_said evs d [u; v; w] /\ conv u p /\ conv v q /\ conv w r /\ x = Some (p, q, r).
(** all that was said about [d], in order: the parts between say nothing about it *)
Inductive every (d : string) : list ev -> list (string * Qc) -> Prop :=
| ev_nil : every d [] []
| ev_other : forall e l ps, (forall vs, e <> Given d vs) -> every d l ps -> every d (e :: l) ps
| ev_pair : forall s t q l ps, number t q -> every d l ps -> every d (Given d [s; t] :: l) ((s, q) :: ps).
Definition switch (evs : list ev) (d : string) (dflt b : bool) : Prop :=
  (unset evs d /\ b = dflt) \/ last_set evs d b.
(** exactly one plain word, naming something that exists *)
Definition the_input (there : string -> bool) (evs : list ev) (f : string) : Prop :=
  there f = true /\ exists l1 l2, evs = (l1 ++ Pos f :: l2)%list /\ forall t, ~ In (Pos t) (l1 ++ l2).
(** no help asked for *)
Definition no_help (evs : list ev) : Prop := unset evs "help".

(** *** The options of the commands *)
Definition o_help := E "help" None "help" (Truth true).
Definition t_suplat := [ o_help;
  E "comment" (Some "c") "comment" (Values 1); E "volumn" (Some "v") "volumn" (Values 1);
  E "ld" (Some "L") "ld" (Truth true); E "no-ld" None "ld" (Truth false);
  E "outmode" (Some "o") "outmode" (Values 1) ]%char.
Definition t_ocumaker := [ o_help;
  E "comment" (Some "c") "comment" (Values 1); E "element" (Some "e") "element" (Values 1);
  E "speckle" (Some "s") "speckle" (Values 1); E "number-speckle" (Some "n") "nspeckle" (Values 1);
  E "dist-restrict" (Some "r") "trs" (Values 2);
  E "refined" None "refined" (Truth true); E "no-refined" None "refined" (Truth false);
  E "outmode" (Some "o") "outmode" (Values 1) ]%char.
Definition t_ocubiter := (t_ocumaker ++
  [ E "move-supercell" (Some "S") "mpr" (Truth true); E "no-move-supercell" (Some "N") "mpr" (Truth false) ]%char)%list.
Definition t_ocutenter := [ o_help;
  E "comment" None "comment" (Values 1); E "element" None "element" (Values 1);
  E "speckle" None "speckle" (Values 2); E "number-speckle" (Some "n") "nspeckle" (Values 2); E "zoom" None "zoom" (Values 1);
  E "dist-restrict" (Some "r") "trs" (Values 2);
  E "refined" None "refined" (Truth true); E "no-refined" None "refined" (Truth false);
  E "outmode" None "outmode" (Values 1);
  E "move-supercell" (Some "S") "mpr" (Truth true); E "no-move-supercell" (Some "N") "mpr" (Truth false) ]%char.
Definition t_ocumakert := [ o_help;
  E "comment" None "comment" (Values 1); E "element" None "element" (Values 1);
  E "speckle" None "speckle" (Values 2); E "zoom" None "zoom" (Values 1);
  E "dist-restrict" (Some "r") "trs" (Values 2);
  E "refined" None "refined" (Truth true); E "no-refined" None "refined" (Truth false);
  E "outmode" None "outmode" (Values 1) ]%char.
Definition t_atclear := [ o_help;
  E "center-element" (Some "c") "cenele" (Values 1); E "radius" (Some "r") "radius" (Values 1);
  E "element-remove" (Some "e") "ele" (Values 1);
  E "refined" None "refined" (Truth true); E "no-refined" None "refined" (Truth false) ]%char.
Definition t_perturb := [ o_help; E "radius" (Some "r") "radius" (Values 1) ]%char.
Definition t_supcell := [ o_help; E "scale" (Some "s") "scale" (Values 3); E "outmode" None "outmode" (Values 1) ]%char.
Definition t_pcell := [ o_help; E "outmode" None "outmode" (Values 1) ]%char.

(** The line of a command, with what it says. *)
Definition spoken (tb : list entry) (there : string -> bool) (toks : list string) (evs : list ev) (f : string) : Prop :=
  line tb toks evs /\ no_help evs /\ the_input there evs f.

(** The words before the name of the command: options of the program itself, up to [--] or the
    first plain word. *)
Definition program_options (ws r : list string) : Prop :=
  Forall (fun w => w = "--help" \/ w = "--version") ws /\ (r = [] \/ (exists r', r = "--" :: r') \/ exists t r', r = t :: r' /\ plain t).
(** A command is named, and the words that follow. *)
Definition names_command (argv : list string) (name : string) (toks : list string) : Prop :=
  argv = name :: toks \/ argv = "--" :: name :: toks.
(** The help or the version is asked for: no word at all, an option of the program, or [--help] in
    the line of a command. *)
Definition asks_help (commands : list (string * list entry)) (argv : list string) : Prop :=
  argv = [] \/ (exists ws r, argv = (ws ++ r)%list /\ ws <> [] /\ program_options ws r) \/
  exists name tb toks evs, In (name, tb) commands /\ names_command argv name toks /\ line tb toks evs /\ ~ no_help evs.
Definition runaba_commands := [("suplat", t_suplat); ("ocumaker", t_ocumaker); ("ocubiter", t_ocubiter); ("ocutenter", t_ocutenter); ("ocumakert", t_ocumakert)].
Definition runati_commands := [("atclear", t_atclear); ("perturb", t_perturb); ("supcell", t_supcell); ("pcell", t_pcell)].

(** The same things said about every parameter, in another order. *)
Definition about (d : string) (e : ev) : bool :=
  match e with Given x _ => String.eqb x d | Flag x _ => String.eqb x d | Pos _ => false end.
Definition is_plain (e : ev) : bool := match e with Pos _ => true | _ => false end.
Definition regrouped (evs evs' : list ev) : Prop :=
  (forall d, filter (about d) evs = filter (about d) evs') /\ filter is_plain evs = filter is_plain evs'.
