(** Property C24: interleaving of next() calls. *)
From Coq Require Import String.
From Verif Require Import Base BaseQ MGeneralCell MSogen SOcc MTee STee LDup LMisc LSymDec LSogen.
Open Scope nat_scope.

Theorem C24_all_sites : forall h o n sp calls, from_constructor (init_cell o) ->
  (forall p, In p (sym_perm o) -> Permutation p (seq 0 (length (numbers (init_cell o))))) ->
  well_formed (length (all_speckle_gen_unitary h o n sp)) calls ->
  exists F, forall fuel, F <= fuel -> exists ans, session_unitary h o n sp fuel calls = Some ans /\
    right_answers (map (@items gcell) (all_speckle_gen_unitary h o n sp)) calls ans.
Proof. exact C24_unitary. Qed.
Print Assumptions C24_all_sites.

Theorem C24_wyckoff : forall h o n wy sp calls, from_constructor (init_cell o) ->
  (forall p, In p (sym_perm o) -> Permutation p (seq 0 (length (numbers (init_cell o))))) ->
  well_formed (length (all_speckle_gen h o n wy sp)) calls ->
  exists F, forall fuel, F <= fuel -> exists ans, session_wy h o n wy sp fuel calls = Some ans /\
    right_answers (map (@items gcell) (all_speckle_gen h o n wy sp)) calls ans.
Proof. exact C24_wy. Qed.
Print Assumptions C24_wyckoff.

Theorem C24_element : forall h o n ele sp calls, from_constructor (init_cell o) ->
  (forall p, In p (sym_perm o) -> Permutation p (seq 0 (length (numbers (init_cell o))))) ->
  well_formed (length (all_speckle_gen_of_ele h o n ele sp)) calls ->
  exists F, forall fuel, F <= fuel -> exists ans, session_ele h o n ele sp fuel calls = Some ans /\
    right_answers (map (@items gcell) (all_speckle_gen_of_ele h o n ele sp)) calls ans.
Proof. exact C24_ele. Qed.
Print Assumptions C24_element.

(** Level 2 is read before and between reads of level 1, and an exhausted level is asked
    again. *)
Example C24_ex :
  let calls := [NextLevel; NextLevel; NextItem 1; NextItem 0; NextItem 1; NextItem 0; NextItem 1; NextItem 1; NextLevel; NextLevel] in
  option_map (map (fun a => match a with GotItem c => Some (numbers c) | _ => None end))
    (session_unitary poly sq_occ 3 6 200 calls) =
  Some [None; None; Some [6;6;5;5]; Some [6;5;5;5]; Some [6;5;6;5]; None; Some [6;5;5;6]; None; None; None]%Z.
Proof. vm_compute. reflexivity. Qed.
