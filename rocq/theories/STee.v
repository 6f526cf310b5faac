(** Specification of sessions: what each call has to return, given what each level
    delivers when it is read alone. *)
From Coq Require Import List Arith.
From Verif Require Import MGeneralCell MTee.
Import ListNotations.

Definition call_eq_dec (a b : call) : {a = b} + {a <> b}.
Proof. decide equality. apply Nat.eq_dec. Defined.

(** The caller only uses generators it has received ([count] levels exist). *)
Definition well_formed (count : nat) (calls : list call) : Prop :=
  forall before k after, calls = before ++ NextItem k :: after ->
    k < count /\ k < count_occ call_eq_dec before NextLevel.

(** [ans] is right for [calls] when every outer call hands out a level while there are
    some left, and the m-th [next] on level k returns the m-th item of that level. *)
Definition right_answers (lv : list (list gcell)) (calls : list call) (ans : list answer) : Prop :=
  length ans = length calls /\
  forall before c after, calls = before ++ c :: after ->
    nth_error ans (length before) = Some
      match c with
      | NextLevel => if count_occ call_eq_dec before NextLevel <? length lv then GotLevel else GotStop
      | NextItem k =>
          match nth_error lv k with
          | None => GotStop
          | Some items =>
              match nth_error items (count_occ call_eq_dec before (NextItem k)) with
              | Some x => GotItem x
              | None => GotStop
              end
          end
      end.
