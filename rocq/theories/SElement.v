(** Independent specification: the chemical symbols of the elements 1..56 and
    72..88 in the order of the periodic table (public knowledge, not read off the
    code), and the vacancy symbol G numbered 0. *)
From Coq Require Import String ZArith List.
Import ListNotations.
Open Scope string_scope.

Definition symbols_0_56 : list string :=
 ["G";
  "H";"He";
  "Li";"Be";"B";"C";"N";"O";"F";"Ne";
  "Na";"Mg";"Al";"Si";"P";"S";"Cl";"Ar";
  "K";"Ca";"Sc";"Ti";"V";"Cr";"Mn";"Fe";"Co";"Ni";"Cu";"Zn";"Ga";"Ge";"As";"Se";"Br";"Kr";
  "Rb";"Sr";"Y";"Zr";"Nb";"Mo";"Tc";"Ru";"Rh";"Pd";"Ag";"Cd";"In";"Sn";"Sb";"Te";"I";"Xe";
  "Cs";"Ba"].

Definition symbols_72_88 : list string :=
 ["Hf";"Ta";"W";"Re";"Os";"Ir";"Pt";"Au";"Hg";"Tl";"Pb";"Bi";"Po";"At";"Rn";
  "Fr";"Ra"].

(** [is_element z s]: element number [z] has symbol [s]. *)
Definition is_element (z : Z) (s : string) : Prop :=
  (0 <= z)%Z /\ nth_error symbols_0_56 (Z.to_nat z) = Some s
  \/ (72 <= z)%Z /\ nth_error symbols_72_88 (Z.to_nat (z - 72)) = Some s.

(** Supported atomic numbers. *)
Definition supported (z : Z) : Prop := (0 <= z <= 56)%Z \/ (72 <= z <= 88)%Z.
