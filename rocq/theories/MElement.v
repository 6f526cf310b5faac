(** Model of ababe/stru/element.py (whole file) and the data file ababe/stru/pt.json. *)
From Coq Require Import String QArith.
From Verif Require Import Base.
Open Scope string_scope.
Open Scope Z_scope.

(** element.py:14-22 [Specie] instance attributes.  Masses and radii are kept as
    the exact decimal written in pt.json. *)
Record specie := mkSpecie { sp_symbol : string; sp_Z : Z; sp_mass : Q; sp_radius : Q }.

(** pt.json, all 74 entries in file order (json.load keeps the order; the keys are
    distinct). Each entry: symbol, atomic number, mass, radius. *)
Definition pt_db : list specie := [
  mkSpecie "G" 0 (0 # 10) (0 # 10);
  mkSpecie "H" 1 (1008 # 1000) (79 # 100);
  mkSpecie "He" 2 (4003 # 1000) (49 # 100);
  mkSpecie "Li" 3 (6941 # 1000) (205 # 100);
  mkSpecie "Be" 4 (9012 # 1000) (14 # 10);
  mkSpecie "B" 5 (10811 # 1000) (117 # 100);
  mkSpecie "C" 6 (12011 # 1000) (91 # 100);
  mkSpecie "N" 7 (14001 # 1000) (75 # 100);
  mkSpecie "O" 8 (15999 # 1000) (65 # 100);
  mkSpecie "F" 9 (18998 # 1000) (57 # 100);
  mkSpecie "Ne" 10 (20180 # 1000) (51 # 100);
  mkSpecie "Na" 11 (22990 # 1000) (223 # 100);
  mkSpecie "Mg" 12 (24305 # 1000) (172 # 100);
  mkSpecie "Al" 13 (26982 # 1000) (182 # 100);
  mkSpecie "Si" 14 (28086 # 1000) (146 # 100);
  mkSpecie "P" 15 (30974 # 1000) (123 # 100);
  mkSpecie "S" 16 (3206 # 100) (109 # 100);
  mkSpecie "Cl" 17 (35453 # 1000) (97 # 100);
  mkSpecie "Ar" 18 (39948 # 1000) (88 # 100);
  mkSpecie "K" 19 (39098 # 1000) (277 # 100);
  mkSpecie "Ca" 20 (40078 # 1000) (223 # 100);
  mkSpecie "Sc" 21 (44956 # 1000) (209 # 100);
  mkSpecie "Ti" 22 (47867 # 1000) (2000 # 1000);
  mkSpecie "V" 23 (50942 # 1000) (192 # 100);
  mkSpecie "Cr" 24 (51996 # 1000) (185 # 100);
  mkSpecie "Mn" 25 (54938 # 1000) (179 # 100);
  mkSpecie "Fe" 26 (55845 # 1000) (172 # 100);
  mkSpecie "Co" 27 (58933 # 1000) (167 # 100);
  mkSpecie "Ni" 28 (58693 # 1000) (163 # 100);
  mkSpecie "Cu" 29 (63546 # 1000) (157 # 100);
  mkSpecie "Zn" 30 (6539 # 100) (153 # 100);
  mkSpecie "Ga" 31 (69723 # 1000) (181 # 100);
  mkSpecie "Ge" 32 (7261 # 100) (152 # 100);
  mkSpecie "As" 33 (74922 # 1000) (133 # 100);
  mkSpecie "Se" 34 (7896 # 100) (122 # 100);
  mkSpecie "Br" 35 (79904 # 1000) (112 # 100);
  mkSpecie "Kr" 36 (8380 # 100) (103 # 100);
  mkSpecie "Rb" 37 (85468 # 1000) (298 # 100);
  mkSpecie "Sr" 38 (8762 # 100) (245 # 100);
  mkSpecie "Y" 39 (88906 # 1000) (227 # 100);
  mkSpecie "Zr" 40 (91224 # 1000) (216 # 100);
  mkSpecie "Nb" 41 (92906 # 1000) (208 # 100);
  mkSpecie "Mo" 42 (9594 # 100) (201 # 100);
  mkSpecie "Tc" 43 (98906 # 1000) (195 # 100);
  mkSpecie "Ru" 44 (10107 # 100) (189 # 100);
  mkSpecie "Rh" 45 (102906 # 1000) (183 # 100);
  mkSpecie "Pd" 46 (10642 # 100) (179 # 100);
  mkSpecie "Ag" 47 (107868 # 1000) (175 # 100);
  mkSpecie "Cd" 48 (112411 # 1000) (171 # 100);
  mkSpecie "In" 49 (114818 # 1000) (2 # 1);
  mkSpecie "Sn" 50 (118710 # 1000) (172 # 100);
  mkSpecie "Sb" 51 (121760 # 1000) (153 # 100);
  mkSpecie "Te" 52 (12760 # 100) (142 # 100);
  mkSpecie "I" 53 (126904 # 1000) (132 # 100);
  mkSpecie "Xe" 54 (13129 # 100) (124 # 100);
  mkSpecie "Cs" 55 (132905 # 1000) (334 # 100);
  mkSpecie "Ba" 56 (137327 # 1000) (278 # 100);
  mkSpecie "Hf" 72 (17849 # 100) (216 # 100);
  mkSpecie "Ta" 73 (180948 # 1000) (209 # 100);
  mkSpecie "W" 74 (18384 # 100) (202 # 100);
  mkSpecie "Re" 75 (186207 # 1000) (197 # 100);
  mkSpecie "Os" 76 (19023 # 100) (192 # 100);
  mkSpecie "Ir" 77 (190217 # 1000) (187 # 100);
  mkSpecie "Pt" 78 (19508 # 100) (183 # 100);
  mkSpecie "Au" 79 (196967 # 1000) (179 # 100);
  mkSpecie "Hg" 80 (20059 # 100) (176 # 100);
  mkSpecie "Tl" 81 (204383 # 1000) (208 # 100);
  mkSpecie "Pb" 82 (2072 # 10) (181 # 100);
  mkSpecie "Bi" 83 (208980 # 1000) (163 # 100);
  mkSpecie "Po" 84 (208982 # 1000) (153 # 100);
  mkSpecie "At" 85 (209987 # 1000) (143 # 100);
  mkSpecie "Rn" 86 (222018 # 1000) (134 # 100);
  mkSpecie "Fr" 87 (223020 # 1000) (0 # 1);
  mkSpecie "Ra" 88 (2260254 # 10000) (0 # 1)].

(** element.py:16-22 [Specie(symbol)]: KeyError for an unknown symbol. *)
Definition Specie_new (symbol : string) : res specie :=
  match find (fun d => String.eqb (sp_symbol d) symbol) pt_db with
  | Some d => Ok (mkSpecie symbol (sp_Z d) (sp_mass d) (sp_radius d))
  | None => Raise KeyError
  end.

(** element.py:63-67 [GhostSpecie()] *)
Definition GhostSpecie_new : specie := mkSpecie "G" 0 0 0.

(** element.py:37,46 [[k for k, v in _pt_db.items() if v["Atomic no"] == an][0]] *)
Definition key_of_num (an : Z) : res string :=
  match List.filter (fun d => Z.eqb (sp_Z d) an) pt_db with
  | d :: _ => Ok (sp_symbol d)
  | [] => Raise IndexError
  end.

(** element.py:32-39 [Specie.from_num] *)
Definition from_num (an : Z) : res specie :=
  if an =? 0 then Ok GhostSpecie_new
  else do key <- key_of_num an; Specie_new key.

(** element.py:41-49 [Specie.to_name] *)
Definition to_name (an : Z) : res string :=
  if an =? 0 then Ok "G" else key_of_num an.

(** element.py:51-52 [__eq__] (the isinstance test always holds between species) *)
Definition sp_eqb (a b : specie) : bool := sp_Z a =? sp_Z b.

(** element.py:54-55 [__ne__] *)
Definition sp_neb (a b : specie) : bool := negb (sp_eqb a b).

(** A species obtained through the public constructors. *)
Definition built (a : specie) : Prop :=
  (exists s, Specie_new s = Ok a) \/ a = GhostSpecie_new \/ (exists z, from_num z = Ok a).
