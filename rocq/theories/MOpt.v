(** Model of the command lines: /repo/ababe/cmdline/runabalib.py and runatilib.py.
    The two programs are groups of commands declared with click.  The part of click they use
    is modelled after click 6.7 (the version of the time; setup.py:19 does not fix one): options may
    stand before or after the argument, [--name v], [--name=v], [-n v], [-nv], clusters of short
    flags, [--] ends the options, the last of several values counts unless the option is
    declared [multiple].  Every complaint of click is one outcome [Usage]; help texts and the
    version message are one outcome [Shown].  Environment variables, prompts and completion are
    not used by the programs.  runabalib.py:9-15, runatilib.py:9-15 ([run]: interrupts) are not
    modelled. *)
From Coq Require Import String Ascii.
From Verif Require Import Base BaseQ MElement MGeneralCell MHnf MSogen MText MIO MModCell MCli.
Set Implicit Arguments.
Open Scope string_scope.
Open Scope Z_scope.

(** ** What click reads from the words of a command line *)
(** An option takes values, or sets a truth value. *)
Inductive arity := Takes (nargs : nat) | Sets (b : bool).
(** names, name of the parameter, arity; a pair of flags [--a/--b] is two entries *)
Definition decl : Type := list string * string * arity.
(** what has been read *)
Inductive ev := Given (dest : string) (vals : list string) | Flag (dest : string) (b : bool) | Pos (s : string).
(** an option that still needs [k + 1] values *)
Inductive wait := Wait (dest : string) (k : nat) (got : list string).

(** the declaration with a given name *)
Fixpoint find_decl (ds : list decl) (name : string) : option (string * arity) :=
  match ds with
  | [] => None
  | (names, dest, a) :: r => if existsb (String.eqb name) names then Some (dest, a) else find_decl r name
  end.
(** one more value *)
Definition feed (w : wait) (v : string) : list ev * option wait :=
  match w with
  | Wait d O got => ([Given d (got ++ [v])], None)
  | Wait d (S k) got => ([], Some (Wait d k (got ++ [v])))
  end.
(** an option with [n] values begins *)
Definition begin_opt (d : string) (n : nat) : option wait :=
  match n with O => None | S k => Some (Wait d k []) end.
Definition begin_with (d : string) (n : nat) (v : string) : option (list ev * option wait) :=
  match begin_opt d n with None => None | Some w => Some (feed w v) end.

(** the text before and after the first [=] *)
Fixpoint cut_eq (s : string) : string * option string :=
  match s with
  | EmptyString => (EmptyString, None)
  | String c r => if Ascii.eqb c "=" then (EmptyString, Some r)
                  else let '(a, b) := cut_eq r in (String c a, b)
  end.
(** the letters after one dash *)
Fixpoint short_opts (ds : list decl) (s : string) : option (list ev * option wait) :=
  match s with
  | EmptyString => Some ([], None)
  | String c r =>
      match find_decl ds (String "-" (String c EmptyString)) with
      | None => None
      | Some (d, Sets b) => match short_opts ds r with
                            | None => None
                            | Some (es, w) => Some (Flag d b :: es, w)
                            end
      | Some (d, Takes n) => match r with
                             | EmptyString => Some ([], begin_opt d n)
                             | _ => begin_with d n r
                             end
      end
  end.
(** a word that begins with a dash and has more characters *)
Definition word_opts (ds : list decl) (t : string) : option (list ev * option wait) :=
  let '(name, value) := cut_eq t in
  if String.prefix "--" t then
    match find_decl ds name with
    | None => None
    | Some (d, Sets b) => match value with None => Some ([Flag d b], None) | Some _ => None end
    | Some (d, Takes n) => match value with None => Some ([], begin_opt d n) | Some v => begin_with d n v end
    end
  else match t with String _ r => short_opts ds r | EmptyString => None end.
(** [-x...] but not [-] *)
Definition dashed (t : string) : bool :=
  match t with String c (String _ _) => Ascii.eqb c "-" | _ => false end.
(** all words; None: click complains *)
Fixpoint scan (ds : list decl) (toks : list string) (w : option wait) : option (list ev) :=
  match toks with
  | [] => match w with None => Some [] | Some _ => None end
  | t :: r =>
      match w with
      | Some w => let '(es, w') := feed w t in
                  match scan ds r w' with None => None | Some l => Some (es ++ l)%list end
      | None =>
          if String.eqb t "--" then Some (List.map Pos r)
          else if dashed t then
            match word_opts ds t with
            | None => None
            | Some (es, w') => match scan ds r w' with None => None | Some l => Some (es ++ l)%list end
            end
          else match scan ds r None with None => None | Some l => Some (Pos t :: l) end
      end
  end.

(** *** The values of the parameters *)
(** the last value stored under a name *)
Definition stored (evs : list ev) (d : string) : option (list string) :=
  fold_left (fun a e => match e with Given x vs => if String.eqb x d then Some vs else a | _ => a end) evs None.
(** all of them ([multiple=True]) *)
Definition appended (evs : list ev) (d : string) : list (list string) :=
  flat_map (fun e => match e with Given x vs => if String.eqb x d then [vs] else [] | _ => [] end) evs.
(** flags *)
Definition flagged (evs : list ev) (d : string) : option bool :=
  fold_left (fun a e => match e with Flag x b => if String.eqb x d then Some b else a | _ => a end) evs None.
(** words that are not options *)
Definition words (evs : list ev) : list string :=
  flat_map (fun e => match e with Pos s => [s] | _ => [] end) evs.

(** conversions; None: click complains *)
Definition as_str (s : string) : option string := Some s.
Definition as_int (s : string) : option Z := match parse_int s with Ok z => Some z | Raise _ => None end.
Definition as_float (s : string) : option Qc := match parse_float s with Ok q => Some q | Raise _ => None end.
Definition as_choice (l : list string) (s : string) : option string := if existsb (String.eqb s) l then Some s else None.
(** a value that may be missing *)
Definition maybe A (conv : string -> option A) (s : string) : option (option A) :=
  match conv s with Some a => Some (Some a) | None => None end.
(** one value; [dflt] is the declared default *)
Definition one A (evs : list ev) (d : string) (conv : string -> option A) (dflt : A) : option A :=
  match stored evs d with None => Some dflt | Some [v] => conv v | Some _ => None end.
(** [required=True] *)
Definition needed A (evs : list ev) (d : string) (conv : string -> option A) : option A :=
  match stored evs d with Some [v] => conv v | _ => None end.
(** two values *)
Definition pair_of A B (f : string -> option A) (g : string -> option B) (vs : list string) : option (A * B) :=
  match vs with
  | [a; b] => match f a, g b with Some x, Some y => Some (x, y) | _, _ => None end
  | _ => None
  end.
(** [nargs=2] without default: click gives [()], here None *)
Definition two A (evs : list ev) (d : string) (conv : string -> option A) : option (option (A * A)) :=
  match stored evs d with
  | None => Some None
  | Some vs => match pair_of conv conv vs with Some p => Some (Some p) | None => None end
  end.
(** [nargs=3] *)
Definition three A (evs : list ev) (d : string) (conv : string -> option A) : option (option (A * A * A)) :=
  match stored evs d with
  | None => Some None
  | Some [a; b; c] => match conv a, conv b, conv c with Some x, Some y, Some z => Some (Some (x, y, z)) | _, _, _ => None end
  | Some _ => None
  end.
(** [nargs=2, multiple=True] *)
Fixpoint all_pairs A B (f : string -> option A) (g : string -> option B) (l : list (list string)) : option (list (A * B)) :=
  match l with
  | [] => Some []
  | vs :: r => match pair_of f g vs, all_pairs f g r with Some p, Some ps => Some (p :: ps) | _, _ => None end
  end.
Definition truth (evs : list ev) (d : string) (dflt : bool) : bool :=
  match flagged evs d with Some b => b | None => dflt end.
(** [click.argument('input', type=click.Path(exists=True))] *)
Definition input_of (there : string -> bool) (evs : list ev) : option string :=
  match words evs with [f] => if there f then Some f else None | _ => None end.

Inductive outcome (A : Type) := Usage | Shown | Called (a : A).
Arguments Usage {A}.
Arguments Shown {A}.
Notation "'ask' x <- a ; b" := (match a with Some x => b | None => Usage end)
  (at level 200, x pattern, a at level 100, b at level 200, right associativity).

(** every command has [--help], looked at before the other parameters *)
Definition help : decl := (["--help"], "help", Sets true).
Definition command A (ds : list decl) (body : list ev -> outcome A) (toks : list string) : outcome A :=
  match scan (help :: ds) toks None with
  | None => Usage
  | Some evs => match flagged evs "help" with Some _ => Shown | None => body evs end
  end.

(** ** runaba *)
Definition modes := ["vasp"; "yaml"].
Inductive aba_call :=
| Suplat (input : string) (comment : option string) (volumn : Z) (ld : bool) (outmode : string)
| Ocumaker (input : string) (comment element speckle : option string) (nspeckle : option Z) (trs : list (string * Qc))
    (refined : bool) (outmode : string)
| Ocubiter (input : string) (comment element speckle : option string) (nspeckle : option Z) (trs : list (string * Qc))
    (refined : bool) (outmode : string) (mpr : bool)
| Ocutenter (input : string) (comment element : option string) (speckle : option (string * string)) (nspeckle : option (Z * Z))
    (zoom : option Qc) (trs : list (string * Qc)) (refined : bool) (outmode : string) (mpr : bool)
| Ocumakert (input : string) (comment element : option string) (speckle : option (string * string))
    (zoom : option Qc) (trs : list (string * Qc)) (refined : bool) (outmode : string).

Section Lines.
(** which paths exist *)
Context (there : string -> bool).

(** runabalib.py:28-34 *)
Definition suplat_decls : list decl :=
  [ (["--comment"; "-c"], "comment", Takes 1);
    (["--volumn"; "-v"], "volumn", Takes 1);
    (["--ld"; "-L"], "ld", Sets true); (["--no-ld"], "ld", Sets false);
    (["--outmode"; "-o"], "outmode", Takes 1) ].
(** runabalib.py:28-38 [suplat] *)
Definition suplat_cmd := command suplat_decls (fun evs =>
  ask input <- input_of there evs;
  ask comment <- one evs "comment" (maybe as_str) None;
  ask volumn <- one evs "volumn" as_int 1;
  ask outmode <- one evs "outmode" (as_choice modes) "yaml";
  Called (Suplat input comment volumn (truth evs "ld" false) outmode)).

(** runabalib.py:40-49 *)
Definition ocumaker_decls : list decl :=
  [ (["--comment"; "-c"], "comment", Takes 1);
    (["--element"; "-e"], "element", Takes 1);
    (["--speckle"; "-s"], "speckle", Takes 1);
    (["--number-speckle"; "-n"], "nspeckle", Takes 1);
    (["--dist-restrict"; "-r"], "trs", Takes 2);
    (["--refined"], "refined", Sets true); (["--no-refined"], "refined", Sets false);
    (["--outmode"; "-o"], "outmode", Takes 1) ].
(** runabalib.py:40-54 [ocumaker] *)
Definition ocumaker_cmd := command ocumaker_decls (fun evs =>
  ask input <- input_of there evs;
  ask comment <- one evs "comment" (maybe as_str) None;
  ask element <- one evs "element" (maybe as_str) None;
  ask speckle <- one evs "speckle" (maybe as_str) None;
  ask nspeckle <- one evs "nspeckle" (maybe as_int) None;
  ask trs <- all_pairs as_str as_float (appended evs "trs");
  ask outmode <- one evs "outmode" (as_choice modes) "vasp";
  Called (Ocumaker input comment element speckle nspeckle trs (truth evs "refined" true) outmode)).

(** runabalib.py:56-67 *)
Definition ocubiter_decls : list decl :=
  [ (["--comment"; "-c"], "comment", Takes 1);
    (["--element"; "-e"], "element", Takes 1);
    (["--speckle"; "-s"], "speckle", Takes 1);
    (["--number-speckle"; "-n"], "nspeckle", Takes 1);
    (["--dist-restrict"; "-r"], "trs", Takes 2);
    (["--refined"], "refined", Sets true); (["--no-refined"], "refined", Sets false);
    (["--outmode"; "-o"], "outmode", Takes 1);
    (["--move-supercell"; "-S"], "mpr", Sets true); (["--no-move-supercell"; "-N"], "mpr", Sets false) ].
(** runabalib.py:56-72 [ocubiter] *)
Definition ocubiter_cmd := command ocubiter_decls (fun evs =>
  ask input <- input_of there evs;
  ask comment <- one evs "comment" (maybe as_str) None;
  ask element <- one evs "element" (maybe as_str) None;
  ask speckle <- one evs "speckle" (maybe as_str) None;
  ask nspeckle <- one evs "nspeckle" (maybe as_int) None;
  ask trs <- all_pairs as_str as_float (appended evs "trs");
  ask outmode <- one evs "outmode" (as_choice modes) "vasp";
  Called (Ocubiter input comment element speckle nspeckle trs (truth evs "refined" true) outmode (truth evs "mpr" true))).

(** runabalib.py:74-86 *)
Definition ocutenter_decls : list decl :=
  [ (["--comment"], "comment", Takes 1);
    (["--element"], "element", Takes 1);
    (["--speckle"], "speckle", Takes 2);
    (["--number-speckle"; "-n"], "nspeckle", Takes 2);
    (["--zoom"], "zoom", Takes 1);
    (["--dist-restrict"; "-r"], "trs", Takes 2);
    (["--refined"], "refined", Sets true); (["--no-refined"], "refined", Sets false);
    (["--outmode"], "outmode", Takes 1);
    (["--move-supercell"; "-S"], "mpr", Sets true); (["--no-move-supercell"; "-N"], "mpr", Sets false) ].
(** runabalib.py:74-92 [ocutenter] *)
Definition ocutenter_cmd := command ocutenter_decls (fun evs =>
  ask input <- input_of there evs;
  ask comment <- one evs "comment" (maybe as_str) None;
  ask element <- one evs "element" (maybe as_str) None;
  ask speckle <- two evs "speckle" as_str;
  ask nspeckle <- two evs "nspeckle" as_int;
  ask zoom <- one evs "zoom" (maybe as_float) None;
  ask trs <- all_pairs as_str as_float (appended evs "trs");
  ask outmode <- one evs "outmode" (as_choice modes) "vasp";
  Called (Ocutenter input comment element speckle nspeckle zoom trs (truth evs "refined" true) outmode (truth evs "mpr" true))).

(** runabalib.py:94-103 *)
Definition ocumakert_decls : list decl :=
  [ (["--comment"], "comment", Takes 1);
    (["--element"], "element", Takes 1);
    (["--speckle"], "speckle", Takes 2);
    (["--zoom"], "zoom", Takes 1);
    (["--dist-restrict"; "-r"], "trs", Takes 2);
    (["--refined"], "refined", Sets true); (["--no-refined"], "refined", Sets false);
    (["--outmode"], "outmode", Takes 1) ].
(** runabalib.py:94-109 [ocumakert] *)
Definition ocumakert_cmd := command ocumakert_decls (fun evs =>
  ask input <- input_of there evs;
  ask comment <- one evs "comment" (maybe as_str) None;
  ask element <- one evs "element" (maybe as_str) None;
  ask speckle <- two evs "speckle" as_str;
  ask zoom <- one evs "zoom" (maybe as_float) None;
  ask trs <- all_pairs as_str as_float (appended evs "trs");
  ask outmode <- one evs "outmode" (as_choice modes) "vasp";
  Called (Ocumakert input comment element speckle zoom trs (truth evs "refined" true) outmode)).

(** ** runati *)
Definition modes3 := ["vasp"; "yaml"; "stdio"].
End Lines.

Inductive ati_call :=
| Atclear (input cenele : string) (radius : Qc) (ele : string) (refined : bool)
| Perturb (input : string) (radius : Qc)
| Supcell (input : string) (scale : option (Z * Z * Z)) (outmode : string)
| Pcell (input : string) (outmode : string).

Section Lines2.
Context (there : string -> bool).
(** runatilib.py:22-28 *)
Definition atclear_decls : list decl :=
  [ (["--center-element"; "-c"], "cenele", Takes 1);
    (["--radius"; "-r"], "radius", Takes 1);
    (["--element-remove"; "-e"], "ele", Takes 1);
    (["--refined"], "refined", Sets true); (["--no-refined"], "refined", Sets false) ].
(** runatilib.py:22-32 [atclear] *)
Definition atclear_cmd := command atclear_decls (fun evs =>
  ask input <- input_of there evs;
  ask cenele <- needed evs "cenele" as_str;
  ask radius <- one evs "radius" as_float 0%Qc;
  ask ele <- needed evs "ele" as_str;
  Called (Atclear input cenele radius ele (truth evs "refined" true))).
(** runatilib.py:34-37 *)
Definition perturb_decls : list decl := [ (["--radius"; "-r"], "radius", Takes 1) ].
(** runatilib.py:34-41 [perturb] *)
Definition perturb_cmd := command perturb_decls (fun evs =>
  ask input <- input_of there evs;
  ask radius <- one evs "radius" as_float 0%Qc;
  Called (Perturb input radius)).
(** runatilib.py:43-47 *)
Definition supcell_decls : list decl :=
  [ (["--scale"; "-s"], "scale", Takes 3); (["--outmode"], "outmode", Takes 1) ].
(** runatilib.py:43-67 [supcell] *)
Definition supcell_cmd := command supcell_decls (fun evs =>
  ask input <- input_of there evs;
  ask scale <- three evs "scale" as_int;
  ask outmode <- one evs "outmode" (as_choice modes3) "stdio";
  Called (Supcell input scale outmode)).
(** runatilib.py:69-72 *)
Definition pcell_decls : list decl := [ (["--outmode"], "outmode", Takes 1) ].
(** runatilib.py:69-88 [pcell] *)
Definition pcell_cmd := command pcell_decls (fun evs =>
  ask input <- input_of there evs;
  ask outmode <- one evs "outmode" (as_choice modes3) "stdio";
  Called (Pcell input outmode)).
End Lines2.

(** *** The groups *)
(** runabalib.py:17-20, runatilib.py:17-20 *)
Definition group_decls : list decl := [help; (["--version"], "version", Sets true)].
(** The options of the group stand before the name of the command; true: help or version *)
Fixpoint group_scan (toks : list string) (shown : bool) : option (bool * list string) :=
  match toks with
  | [] => Some (shown, [])
  | t :: r => if String.eqb t "--" then Some (shown, r)
              else if dashed t then
                match word_opts group_decls t with
                | Some (_ :: _, None) => group_scan r true
                | _ => None
                end
              else Some (shown, t :: r)
  end.
Fixpoint pick A (cmds : list (string * A)) (name : string) : option A :=
  match cmds with
  | [] => None
  | (n, x) :: r => if String.eqb name n then Some x else pick r name
  end.
(** runabalib.py:17-20, runatilib.py:17-20; without any word the help is shown *)
Definition group A (cmds : list (string * (list string -> outcome A))) (argv : list string) : outcome A :=
  match argv with
  | [] => Shown
  | _ => match group_scan argv false with
         | None => Usage
         | Some (true, _) => Shown
         | Some (false, []) => Usage
         | Some (false, name :: r) => match pick cmds name with None => Usage | Some cmd => cmd r end
         end
  end.
(** runabalib.py:28, 40, 56, 74, 94 *)
Definition aba_line (there : string -> bool) : list string -> outcome aba_call :=
  group [("suplat", suplat_cmd there); ("ocumaker", ocumaker_cmd there); ("ocubiter", ocubiter_cmd there);
         ("ocutenter", ocutenter_cmd there); ("ocumakert", ocumakert_cmd there)].
(** runatilib.py:22, 34, 43, 69 *)
Definition ati_line (there : string -> bool) : list string -> outcome ati_call :=
  group [("atclear", atclear_cmd there); ("perturb", perturb_cmd there); ("supcell", supcell_cmd there); ("pcell", pcell_cmd there)].

(** ** The bodies of the commands *)
(** The document read for the ternary commands (runabalib.py:88, 105): keys may be missing. *)
Record sdoc := mkSdoc { d_zoom : option Qc; d_comment : option string; d_lattice : option (mat Qc);
                        d_positions : option (list (vec Qc)); d_numbers : option (list Z) }.
Definition key A (x : option A) : res A := match x with Some a => Ok a | None => Raise KeyError end.
(** [a, b = x]; the empty tuple cannot be unpacked *)
Definition unpack A (x : option A) : res A := match x with Some a => Ok a | None => Raise ValueError end.
(** occupytenter.py:19-24, occupymakert.py:18-23 *)
Definition zoom_or (zoom : option Qc) (d : sdoc) : Qc :=
  match zoom with Some z => z | None => match d_zoom d with Some z => z | None => 1%Qc end end.
(** occupytenter.py:26-31, occupymakert.py:25-30 *)
Definition comment_or_default (c : option string) (d : sdoc) : string :=
  match c with Some s => s | None => match d_comment d with Some s => s | None => "default" end end.
(** occupytenter.py:15-62, occupymakert.py:14-57 [__init__] up to the unpacking of the species *)
Definition ternary_app (d : sdoc) (comment element : option string) (speckle : option (string * string)) (counts : res unit)
    (zoom : option Qc) (trs : list (string * Qc)) (refined : bool) (outmode : string) (mpr : bool) : res tapp :=
  do lat <- key (d_lattice d);
  do pos <- key (d_positions d);
  do nums <- key (d_numbers d);
  do _ <- GeneralCell_new (vmap (vmap (fun x => x * zoom_or zoom d)%Qc) lat) pos nums;
  do _ <- target nums element;
  do s <- unpack speckle;
  do _ <- counts;
  Tapp_new lat pos nums (zoom_or zoom d) (comment_or_default comment d) element (fst s) (snd s) trs refined outmode mpr.

Section Bodies.
Context (spg_ops : gcell -> list symop) (spg_wyckoffs : gcell -> list string)
  (spg_primitive_size : mat Qc * list (vec Qc) * list Z -> nat)
  (spg_standardize : mat Qc * list (vec Qc) * list Z -> mat Qc * list (vec Qc) * list Z).
Context (h : list Z -> Z) (dump : ydoc -> string) (load : string -> res ydoc) (load_settings : string -> res sdoc) (cbrt : Qc -> Qc).
(** superlattices: [SuperLatticeGenerator.hnfs_from_n], [SuperLatticeGenerator2D.hnfs_from_n] *)
Context (gen3 gen2 : gcell -> Z -> res (list slcell)).
(** the current directory, the random suffixes, the names chosen by tempfile *)
Context (cwd rd : string) (suffix : nat -> string) (tmp : files -> string -> string -> string).

(** an exception before anything is written *)
Definition fail_with (fs : files) (ds : dirs) (e : exn) : cli_out := mkOut fs ds (Some e).
Definition settings_of (input : string) (fs : files) : res sdoc :=
  match fs input with None => Raise FileNotFoundError | Some t => load_settings t end.
(** runabalib.py:34-38, 49-54, 67-72, 86-92, 103-109 *)
Definition aba_body (c : aba_call) (fs : files) (ds : dirs) : cli_out :=
  match c with
  | Suplat input com v ld mode =>
      match (do u <- from_file load cbrt (Some input) None fs;
             suplat_new spg_primitive_size (if ld then gen2 else gen3) u com v mode) with
      | Raise e => fail_with fs ds e
      | Ok a => suplat_run spg_standardize dump a cwd suffix fs ds
      end
  | Ocumaker input com ele sp n trs refined mode =>
      match (do u <- from_file load cbrt (Some input) None fs; maker_new u com ele sp n trs refined mode) with
      | Raise e => fail_with fs ds e
      | Ok a => maker_run spg_ops spg_wyckoffs spg_primitive_size spg_standardize h dump a cwd rd suffix fs ds
      end
  | Ocubiter input com ele sp n trs refined mode mpr =>
      match (do u <- from_file load cbrt (Some input) None fs; biter_new u com ele sp n trs refined mode mpr) with
      | Raise e => fail_with fs ds e
      | Ok a => biter_run spg_ops spg_wyckoffs spg_primitive_size spg_standardize h dump a cwd rd suffix fs ds
      end
  | Ocutenter input com ele sp n zoom trs refined mode mpr =>
      match (do d <- settings_of input fs;
             do a <- ternary_app d com ele sp (do _ <- unpack n; Ok tt) zoom trs refined mode mpr;
             do n <- unpack n; Ok (a, n)) with
      | Raise e => fail_with fs ds e
      | Ok (a, n) => tenter_run spg_ops spg_wyckoffs spg_primitive_size spg_standardize h dump a (fst n) (snd n) cwd rd tmp fs ds
      end
  | Ocumakert input com ele sp zoom trs refined mode =>
      match (do d <- settings_of input fs; ternary_app d com ele sp (Ok tt) zoom trs refined mode true) with
      | Raise e => fail_with fs ds e
      | Ok a => makert_run spg_ops spg_wyckoffs spg_primitive_size spg_standardize h dump a cwd rd tmp fs ds
      end
  end.
(** runaba: the command line, then the body *)
Definition runaba (argv : list string) (fs : files) (ds : dirs) : outcome cli_out :=
  match aba_line (fun p => match fs p with Some _ => true | None => ds p end) argv with
  | Usage => Usage
  | Shown => Shown
  | Called c => Called (aba_body c fs ds)
  end.

(** [outmode == 'stdio'] (runatilib.py:63, 83) *)
Definition outmode_of (m : string) : option string := if String.eqb m "stdio" then None else Some m.
(** runatilib.py:28-32, 37-41, 47-67, 72-88; [fuel] and [rnd] as in [cmd_atclear] and
    [cmd_perturb] *)
Definition ati_body (fuel : nat) (rnd : list (vec Qc * Qc)) (c : ati_call) (fs : files) : option (res (files * string)) :=
  match c with
  | Atclear input cen r ele refined =>
      match from_file load cbrt (Some input) None fs with
      | Raise e => Some (Raise e)
      | Ok u => cmd_atclear spg_standardize dump fuel u input cen r ele refined fs
      end
  | Perturb input r =>
      match from_file load cbrt (Some input) None fs with
      | Raise e => Some (Raise e)
      | Ok u => cmd_perturb dump u input r rnd fs
      end
  | Supcell input scale mode =>
      Some (do u <- from_file load cbrt (Some input) None fs;
            do s <- unpack scale;
            cmd_supcell dump u input (V3 (fst (fst s)) (snd (fst s)) (snd s)) (outmode_of mode) fs)
  | Pcell input mode =>
      Some (do u <- from_file load cbrt (Some input) None fs; cmd_pcell spg_standardize dump u input (outmode_of mode) fs)
  end.
(** runati *)
Definition runati (fuel : nat) (rnd : list (vec Qc * Qc)) (argv : list string) (fs : files) (ds : dirs)
    : outcome (option (res (files * string))) :=
  match ati_line (fun p => match fs p with Some _ => true | None => ds p end) argv with
  | Usage => Usage
  | Shown => Shown
  | Called c => Called (ati_body fuel rnd c fs)
  end.
End Bodies.
