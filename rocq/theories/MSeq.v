(** Model of the methods ModifiedCell inherits from [collections.abc.MutableSequence]
    (scaffold.py:471), written as in Python's library on top of the methods that scaffold.py
    defines. *)
From Verif Require Import Base BaseQ MElement MModCell.
Set Implicit Arguments.
Open Scope Z_scope.
Open Scope list_scope.

(** [v is value or v == value] with site.py:18-19 *)
Definition is_or_eq (h : heap) (a b : nat) : bool := Nat.eqb a b || site_eqb (site_at h a) (site_at h b).

(** [Sequence.index(value, start, stop)]: the loop over [i]; [None]: still running after
    [fuel] steps.  [self[i]] is scaffold.py:502-503; its IndexError ends the loop. *)
Fixpoint index_loop (fuel : nat) (h : heap) (c value : nat) (stop : option Z) (i : Z) : option (res Z) :=
  match fuel with
  | O => None
  | S f =>
      if match stop with None => true | Some e => i <? e end then
        match snd (mc_getitem c i h) with
        | Ok v => if is_or_eq h v value then Some (Ok i) else index_loop f h c value stop (i + 1)
        | Raise _ => Some (Raise ValueError)
        end
      else Some (Raise ValueError)
  end.
(** [Sequence.index]: negative bounds count from the end *)
Definition mc_index (fuel : nat) (h : heap) (c value : nat) (start : Z) (stop : option Z) : option (res Z) :=
  let n := Z.of_nat (mc_len h c) in
  index_loop fuel h c value (match stop with Some e => Some (if e <? 0 then e + n else e) | None => None end)
    (if start <? 0 then Z.max (n + start) 0 else start).

(** [Sequence.count], [Sequence.__contains__]: iteration by scaffold.py:486-490 *)
Definition mc_count (h : heap) (c value : nat) : nat := length (filter (fun v => is_or_eq h v value) (refs h c)).
(** [value in c] *)
Definition mc_contains (h : heap) (c value : nat) : bool := existsb (fun v => is_or_eq h v value) (refs h c).

(** [Sequence.__reversed__]: [self[i]] for i = len-1, ..., 0 *)
Definition mc_reversed (h : heap) (c : nat) : res (list nat) :=
  mapM (fun i => snd (mc_getitem c (Z.of_nat i) h)) (rev (seq 0 (mc_len h c))).

(** [MutableSequence.reverse]: swap item i and item n-i-1 for i in range(n//2); the right side is
    evaluated first *)
Definition mc_swap (c : nat) (n : Z) (i : nat) : cmd unit :=
  let i := Z.of_nat i in
  let! x := mc_getitem c (n - i - 1) in
  let! y := mc_getitem c i in
  let! _ := mc_setitem c i x in
  mc_setitem c (n - i - 1) y.
(** the loop *)
Definition mc_reverse (c : nat) : cmd unit :=
  fun h => let n := mc_len h c in citer (mc_swap c (Z.of_nat n)) (seq 0 (Nat.div n 2)) h.

(** [MutableSequence.clear]: pop until IndexError *)
Fixpoint mc_clear (fuel : nat) (c : nat) (h : heap) : option (heap * res unit) :=
  match fuel with
  | O => None
  | S f => match mc_pop c (-1) h with
           | (h', Ok _) => mc_clear f c h'
           | (h', Raise IndexError) => Some (h', Ok tt)
           | (h', Raise e) => Some (h', Raise e)
           end
  end.

(** [MutableSequence.remove]: [del self[self.index(value)]] *)
Definition mc_remove (fuel : nat) (c value : nat) (h : heap) : option (heap * res unit) :=
  match mc_index fuel h c value 0 None with
  | None => None
  | Some (Ok i) => Some (mc_delitem c i h)
  | Some (Raise e) => Some (h, Raise e)
  end.

(** [MutableSequence.__iadd__] with a ModifiedCell: [self.extend(values); return self] *)
Definition mc_iadd (fuel : nat) (c d : nat) (h : heap) : option (heap * res nat) :=
  match mc_extend_cell fuel c d h with
  | None => None
  | Some (h', Ok _) => Some (h', Ok c)
  | Some (h', Raise e) => Some (h', Raise e)
  end.
