(** Specification vocabulary for the inherited sequence methods of ModifiedCell. *)
From Verif Require Import Base BaseQ MElement MModCell SModCell.
Set Implicit Arguments.
Open Scope Z_scope.
Open Scope list_scope.

(** Two references lead to sites with the same position and atomic number. *)
Definition same_site (h : heap) (a b : nat) : Prop :=
  exists s t, nth_error (h_site h) a = Some s /\ nth_error (h_site h) b = Some t /\
    s_pos s = s_pos t /\ sp_Z (s_ele s) = sp_Z (s_ele t).

(** Only the list of [c] changes: it becomes [l]. *)
Definition only_list (h : heap) (c : nat) (l : list nat) (h' : heap) : Prop :=
  wf_heap h' /\ holds h' c l /\ h_site h' = h_site h /\
  (forall lat ss, contains h c lat ss -> exists ss', contains h' c lat ss') /\
  forall d rd, d <> c -> holds h d rd -> holds h' d rd.

(** Where a search bound [b] lies in a list of [n] items. *)
Definition from_bound (n : nat) (b : Z) (k : Z) : Prop :=
  (0 <= b /\ k = b) \/ (b < 0 /\ - Z.of_nat n <= b /\ k = b + Z.of_nat n) \/ (b < - Z.of_nat n /\ k = 0).
Definition upto_bound (n : nat) (b : option Z) (k : Z) : Prop :=
  match b with None => k = Z.of_nat n | Some e => (0 <= e /\ k = e) \/ (e < 0 /\ k = e + Z.of_nat n) end.
