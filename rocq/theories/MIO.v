(** Model of ababe/io/vasp.py, ababe/io/yaml.py and ababe/io/io.py (whole files).
    Simplifications: coordinate tables that are not made of rows of three numbers raise
    ValueError (numpy refuses ragged tables; regular tables of another width fail later in
    GeneralCell); the YAML library is given by two functions [dump] and [load] on
    documents with the five fields the code uses; the file system is a map from names to
    contents and opening a file for writing always succeeds. *)
From Coq Require Import String Ascii.
From Verif Require Import Base BaseQ MElement MSort MGeneralCell MText.
Set Implicit Arguments.
Open Scope string_scope.
Open Scope Z_scope.

(** a line break *)
Definition nl : string := String newline EmptyString.

(** Decimal text of an integer ([str(zoom)]). *)
Definition str_int (z : Z) : string := if z <? 0 then String "-" (decN (- z)) else decN z.

(** *** Writer *)
(** vasp.py:56-65 [VaspOutput.__init__]; the names are computed here. *)
Record vasp_out := mkVO { vo_cell : gcell; vo_names : list string; vo_zoom : Z }.
(** vasp.py:56-65 [VaspOutput.__init__] *)
Definition VaspOutput_new (g : gcell) (zoom : Z) : res vasp_out :=
  do names <- mapM to_name (numbers g); Ok (mkVO g names zoom).

(** vasp.py:74-78: Counter, sorted by atomic number, without "G" *)
Definition ordered_atoms (names : list string) : list (string * nat) :=
  List.filter (fun kv => negb (String.eqb (fst kv) "G"))
    (isort (fun a b => Z.leb (name_Z (fst a)) (name_Z (fst b))) (counter names)).
(** vasp.py:80-81 *)
Definition comment_of (ordered : list (string * nat)) : string :=
  String.concat "" (List.map (fun kv => String.append (fst kv) (dec (snd kv))) ordered).

(** the three entries of a row *)
Definition vlist A (v : vec A) : list A := [vx v; vy v; vz v].
(** vasp.py:86 and 101 *)
Definition format_row (v : vec Qc) : string := String.concat " " (List.map format_10_6f (vlist v)).

(** vasp.py:92-94 [zip(numbers, positions, names)], stably sorted by number *)
Definition sorted_position (v : vasp_out) : list (Z * vec Qc * string) :=
  isort (fun a b => Z.leb (fst (fst a)) (fst (fst b)))
    (combine (combine (numbers (vo_cell v)) (positions (vo_cell v))) (vo_names v)).

(** vasp.py:67-105 [get_string] *)
Definition poscar_lines (v : vasp_out) (direct : bool) : list string :=
  let ordered := ordered_atoms (vo_names v) in
  ([comment_of ordered; str_int (vo_zoom v)] ++
   List.map format_row (vlist (lattice (vo_cell v))) ++
   [String.concat " " (List.map fst ordered); String.concat " " (List.map (fun kv => dec (snd kv)) ordered);
    if direct then "direct" else "cartesian"] ++
   List.flat_map (fun t : Z * vec Qc * string =>
      let '(i, pos, site) := t in
      if negb (i =? 0) then [String.append (format_row pos) (String " " site)] else []) (sorted_position v))%list.
(** vasp.py:67-105 [get_string] *)
Definition get_string (v : vasp_out) (direct : bool) : string :=
  String.append (String.concat nl (poscar_lines v direct)) nl.

(** *** Reader *)
(** vasp.py:26-28, 44-46: a row of a numeric array with three columns.  Simplification: rows of
    another width are refused here; numpy builds an array of that width when all rows agree,
    and the error comes later, from whatever uses the array. *)
Definition row3 (l : list Qc) : res (vec Qc) :=
  match l with [a; b; c] => Ok (V3 a b c) | _ => Raise ValueError end.
(** vasp.py:20-48: exactly three lattice rows *)
Definition rows3 (l : list (vec Qc)) : res (mat Qc) :=
  match l with [a; b; c] => Ok (V3 a b c) | _ => Raise ValueError end.

(** [np.linalg.det] *)
Definition det (L : mat Qc) : Qc :=
  let '(V3 (V3 a b c) (V3 d e f) (V3 g h i)) := L in
  (a * (e * i - f * h) - b * (d * i - f * g) + c * (d * h - e * g))%Qc.

(** vasp.py:39-42: repeat each symbol's number; a count without symbol is an IndexError *)
Fixpoint expand (nsymbols : list Z) (natoms : list Z) : res (list Z) :=
  match natoms with
  | [] => Ok []
  | s :: rest =>
      match nsymbols with
      | [] => Raise IndexError
      | z :: zs => do r <- expand zs rest; Ok (List.repeat z (Z.to_nat s) ++ r)%list
      end
  end.

(** vasp.py:20-48 [from_string]; [cbrt x] stands for [x ** (1/3)] *)
Definition from_string (cbrt : Qc -> Qc) (content : string) : res (mat Qc * list (vec Qc) * list Z) :=
  let lines := List.filter (fun l => negb (blank l)) (split_lines content) in
  do _ <- get_nth lines 0;
  do l1 <- get_nth lines 1;
  do zoom <- parse_float l1;
  do rows <- mapM (fun line => do fs <- mapM parse_float (split line); row3 fs) (firstn 3 (skipn 2 lines));
  do lat0 <- rows3 rows;
  let lat1 := vmap (vmap (around 4)) lat0 in
  let f := if Qcltb zoom 0%Qc
           then let d := det lat1 in
                let vol := if Qcltb d 0%Qc then (- d)%Qc else d in cbrt (- zoom / vol)%Qc
           else zoom in
  let lat := vmap (vmap (fun x => x * f)%Qc) lat1 in
  do l5 <- get_nth lines 5;
  do nsymbols <- mapM (fun s => do sp <- Specie_new s; Ok (sp_Z sp)) (split l5);
  do l6 <- get_nth lines 6;
  do natoms <- mapM parse_int (split l6);
  do nums <- expand nsymbols natoms;
  do pos0 <- mapM (fun line => do fs <- mapM parse_float (firstn 3 (split line)); row3 fs) (skipn 8 lines);
  Ok (lat, List.map (vmap (around 4)) pos0, nums).

(** vasp.py:50-51 [get_cell] *)
Definition vasp_get_cell (cbrt : Qc -> Qc) (content : string) : res gcell :=
  do r <- from_string cbrt content;
  let '(lat, pos, nums) := r in GeneralCell_new lat pos nums.

(** *** YAML *)
Record ydoc := mkY { y_comment : string; y_lattice : mat Qc; y_positions : list (vec Qc); y_numbers : list Z; y_zoom : Qc }.
(** yaml.py:49-64, 66-78 [YamlOutput]: the document handed to the YAML library *)
Definition yaml_doc (g : gcell) : res ydoc :=
  do names <- mapM to_name (numbers g);
  Ok (mkY (comment_of (ordered_atoms names)) (vmap (vmap (around 6)) (lattice g))
          (List.map (vmap (around 6)) (positions g)) (numbers g) 1%Qc).
(** yaml.py:31-42 [YamlInput.from_string] on the loaded document *)
Definition yaml_read (d : ydoc) : mat Qc * list (vec Qc) * list Z :=
  (vmap (vmap (fun x => around 4 (x * y_zoom d)%Qc)) (y_lattice d), List.map (vmap (around 4)) (y_positions d), y_numbers d).
(** yaml.py:44-45 *)
Definition yaml_get_cell (d : ydoc) : res gcell :=
  let '(lat, pos, nums) := yaml_read d in GeneralCell_new lat pos nums.

(** *** Dispatch *)
Section Dispatch.
Variables (dump : ydoc -> string) (load : string -> res ydoc) (cbrt : Qc -> Qc).

(** io.py:20-26: the two formats *)
Inductive format := Fyaml | Fvasp.
(** io.py:20-26 and 37-43; None: neither branch is taken *)
Definition choose (fname : string) (fmt : option string) : option format :=
  let fmt := match fmt with None => "" | Some f => lower f end in
  if String.eqb fmt "yaml" || glob "*.yaml*" (lower fname) then Some Fyaml
  else if String.eqb fmt "vasp" || glob "*.vasp" (lower fname) || glob "*POSCAR*" fname then Some Fvasp
  else None.

(** Contents of the file system by name. *)
Definition files := string -> option string.
(** [open(name, "w").write(text)] *)
Definition put (fs : files) (name text : string) : files := fun n => if String.eqb n name then Some text else fs n.

(** text produced by the two writers *)
Definition render (f : format) (g : gcell) : res string :=
  match f with
  | Fyaml => do d <- yaml_doc g; Ok (dump d)
  | Fvasp => do v <- VaspOutput_new g 1; Ok (get_string v true)
  end.
(** cell read from a text by the two readers *)
Definition read_text (f : format) (content : string) : res gcell :=
  match f with
  | Fyaml => do d <- load content; yaml_get_cell d
  | Fvasp => vasp_get_cell cbrt content
  end.

(** io.py:17-31 [write_file]: the new files and what is printed *)
Definition write_file (g : gcell) (fname fmt : option string) (fs : files) : res (files * string) :=
  let name := match fname with None => "" | Some n => n end in
  match choose name fmt with
  | None => Raise UnboundLocalError
  | Some f => do text <- render f g;
              if String.eqb name "" then Ok (fs, String.append text nl) else Ok (put fs name text, "")
  end.

(** io.py:33-45 [from_file] *)
Definition from_file (fname fmt : option string) (fs : files) : res gcell :=
  let name := match fname with None => "" | Some n => n end in
  match choose name fmt with
  | None => Raise UnboundLocalError
  | Some f => match fs name with
              | None => Raise FileNotFoundError
              | Some content => read_text f content
              end
  end.
End Dispatch.
