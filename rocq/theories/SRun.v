(** What the programs make of a line: from the words of the line and the files to the settings of
    the run. *)
From Coq Require Import String.
From Verif Require Import Base BaseQ SElement MElement SGeneralCell MGeneralCell MIO MCli SCliArgs MOpt SOpt.
Open Scope string_scope.

(** [argv] is a line of the command [name], with the options [tb]; it says [evs] and names the
    file [f], which exists. *)
Definition asks (name : string) (tb : list entry) (fs : files) (ds : string -> bool) (argv : list string) (evs : list ev) (f : string) : Prop :=
  exists toks, names_command argv name toks /\ line tb toks evs /\ no_help evs /\ (fs f <> None \/ ds f = true) /\
    exists l1 l2, evs = (l1 ++ Pos f :: l2)%list /\ forall t, ~ In (Pos t) (l1 ++ l2).

(** The word on the line counts before the key of the document, this before the default. *)
Inductive settled {A} (word doc : option A) (dflt : A) : A -> Prop :=
| by_word : forall x, word = Some x -> settled word doc dflt x
| by_doc : forall x, word = None -> doc = Some x -> settled word doc dflt x
| by_default : word = None -> doc = None -> settled word doc dflt dflt.

(** ** The binary commands: settings for the cell [u], when the line says [evs]. *)
Definition binary_settings (u : gcell) (evs : list ev) (a : app) : Prop :=
  exists com ele sp trs, optional evs "comment" text com /\ optional evs "element" text ele /\ optional evs "speckle" text sp /\ every "trs" evs trs /\
    a_cell a = u /\ comment_chosen (numbers u) com (a_comment a) /\ element_chosen (numbers u) ele (a_ele a) /\ species_chosen sp (a_speckle a) /\
    a_tr a = List.hd_error trs /\ switch evs "refined" true (a_refined a) /\ single evs "outmode" (among ["vasp"; "yaml"]) "vasp" (a_outmode a).
Definition ocubiter_settings (u : gcell) (evs : list ev) (a : app) : Prop :=
  binary_settings u evs a /\ switch evs "mpr" true (a_mpr a) /\
  exists n, optional evs "nspeckle" whole n /\
    a_n a = match n with Some n => n | None => (Z.of_nat (count_occ Z.eq_dec (numbers u) (a_ele a)) / 2 + 1)%Z end.
Definition ocumaker_settings (u : gcell) (evs : list ev) (a : app) : Prop :=
  binary_settings u evs a /\ a_mpr a = true /\
  exists n, optional evs "nspeckle" whole n /\
    a_n a = match n with Some n => n | None => (Z.of_nat (count_occ Z.eq_dec (numbers u) (a_ele a)) - 1)%Z end.

(** ** The ternary commands: settings from the document [d] and the line. *)
Definition ternary_settings (d : sdoc) (evs : list ev) (a : tapp) : Prop :=
  exists com ele trs zoom lat pos nums z, optional evs "comment" text com /\ optional evs "element" text ele /\ optional evs "zoom" number zoom /\ every "trs" evs trs /\
    couple evs "speckle" text (Some (t_s1 a, t_s2 a)) /\
    d_lattice d = Some lat /\ d_positions d = Some pos /\ d_numbers d = Some nums /\ settled zoom (d_zoom d) 1%Qc z /\
    GeneralCell_new (vmap (vscale z) lat) pos nums = Ok (t_cell a) /\ settled com (d_comment d) "default" (t_comment a) /\
    element_chosen nums ele (t_ele a) /\ t_size a = count_occ Z.eq_dec nums (t_ele a) /\
    t_tr a = List.hd_error trs /\ switch evs "refined" true (t_refined a) /\ single evs "outmode" (among ["vasp"; "yaml"]) "vasp" (t_outmode a).

(** ** suplat: superlattices of [u] of volume [v], planar ones if asked for. *)
Definition suplat_settings (psize : mat Qc * list (vec Qc) * list Z -> nat) (gen3 gen2 : gcell -> Z -> res (list MHnf.slcell)) (u : gcell) (evs : list ev) (a : sapp) : Prop :=
  psize (spg_cell u) = List.length (snd (spg_cell u)) /\
  single evs "volumn" whole 1%Z (s_v a) /\ single evs "outmode" (among ["vasp"; "yaml"]) "yaml" (s_outmode a) /\
  (exists ld, switch evs "ld" false ld /\ (if ld then gen2 else gen3) u (s_v a) = Ok (s_hnfs a)) /\
  exists com, optional evs "comment" text com /\ s_comment a = match com with Some s => if String.eqb s "" then "default" else s | None => "default" end.

(** Where the result goes: to a file of the given mode, or to the terminal. *)
Definition destination (evs : list ev) (m : option string) : Prop :=
  (m = None /\ single evs "outmode" (among ["vasp"; "yaml"; "stdio"]) "stdio" "stdio") \/
  exists s, m = Some s /\ s <> "stdio" /\ single evs "outmode" (among ["vasp"; "yaml"; "stdio"]) "stdio" s.

(** No run, or an exception before anything is written. *)
Definition untouched (fs : files) (ds : string -> bool) (r : outcome cli_out) : Prop :=
  r = Usage \/ exists e, r = Called (mkOut fs ds (Some e)).
