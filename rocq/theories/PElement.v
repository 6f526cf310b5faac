(** Properties C01, C02. *)
From Coq Require Import String QArith.
From Verif Require Import Base MElement SElement LElement.
Open Scope string_scope.
Open Scope Z_scope.

(** C01: to_name succeeds exactly on the supported numbers and gives the symbol of
    the periodic table; Specie and to_name are inverse; from_num agrees. *)
Theorem C01_to_name_periodic_table :
  forall z s, to_name z = Ok s <-> is_element z s.
Proof. exact to_name_spec. Qed.
Print Assumptions C01_to_name_periodic_table.

Theorem C01_roundtrip : forall z,
  (supported z <-> exists s, to_name z = Ok s) /\
  (forall s, to_name z = Ok s -> exists sp, Specie_new s = Ok sp /\ sp_Z sp = z) /\
  (forall s sp, Specie_new s = Ok sp -> to_name (sp_Z sp) = Ok s) /\
  (forall sp s, from_num z = Ok sp -> to_name z = Ok s ->
     exists sp', Specie_new s = Ok sp' /\ sp_eqb sp sp' = true /\ sp_symbol sp = sp_symbol sp') /\
  (~ supported z -> to_name z = Raise IndexError /\ from_num z = Raise IndexError).
Proof. exact to_name_roundtrip. Qed.
Print Assumptions C01_roundtrip.

Theorem C01_from_num_total :
  forall z, supported z -> exists sp, from_num z = Ok sp /\ sp_Z sp = z.
Proof. exact from_num_ok. Qed.
Print Assumptions C01_from_num_total.

Theorem C01_symbol_domain : forall s,
  (exists sp, Specie_new s = Ok sp) <-> (exists z, is_element z s).
Proof. exact Specie_new_domain. Qed.
Print Assumptions C01_symbol_domain.

Theorem C01_unknown_symbol :
  forall s, (forall z, ~ is_element z s) -> Specie_new s = Raise KeyError.
Proof. exact Specie_new_err. Qed.
Print Assumptions C01_unknown_symbol.

Example C01_ex1 : to_name 26 = Ok "Fe" /\ supported 26 /\ is_element 79 "Au".
Proof. repeat split; try (vm_compute; reflexivity); [left; lia | right; split; [lia|reflexivity]]. Qed.
Example C01_ex2 : ~ supported 60 /\ to_name 60 = Raise IndexError /\ Specie_new "Xx" = Raise KeyError.
Proof. split; [unfold supported; lia|]. split; vm_compute; reflexivity. Qed.

(** C02 *)
Theorem C02_equality_is_equivalence : forall a b c,
  sp_eqb a a = true /\ sp_eqb a b = sp_eqb b a /\
  (sp_eqb a b = true -> sp_eqb b c = true -> sp_eqb a c = true) /\
  sp_neb a b = negb (sp_eqb a b).
Proof. exact sp_eqb_equiv. Qed.
Print Assumptions C02_equality_is_equivalence.

Theorem C02_equal_iff_same_symbol : forall a b, built a -> built b ->
  (sp_eqb a b = true <-> sp_symbol a = sp_symbol b).
Proof. exact sp_eqb_built. Qed.
Print Assumptions C02_equal_iff_same_symbol.

Theorem C02_one_vacancy : forall g f, Specie_new "G" = Ok g -> from_num 0 = Ok f ->
  sp_eqb g f = true /\ sp_eqb g GhostSpecie_new = true /\ sp_eqb f GhostSpecie_new = true /\
  (sp_mass g == sp_mass f)%Q /\ (sp_radius g == sp_radius f)%Q.
Proof. exact vacancy_one. Qed.
Print Assumptions C02_one_vacancy.

Example C02_ex : exists a b, Specie_new "Cs" = Ok a /\ from_num 55 = Ok b /\ sp_eqb a b = true /\ built a /\ built b.
Proof.
  exists (mkSpecie "Cs" 55 (132905 # 1000) (334 # 100)), (mkSpecie "Cs" 55 (132905 # 1000) (334 # 100)).
  assert (A : Specie_new "Cs" = Ok (mkSpecie "Cs" 55 (132905 # 1000) (334 # 100))) by (vm_compute; reflexivity).
  assert (B : from_num 55 = Ok (mkSpecie "Cs" 55 (132905 # 1000) (334 # 100))) by (vm_compute; reflexivity).
  repeat split; try assumption; [left|right; right]; eauto.
Qed.
