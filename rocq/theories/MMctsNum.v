(** The numbers of the tree search (/repo/ababe/mlearn/mcts.py) with their Python type.
    [MMcts] computes with exact rationals.  The file does not import [division], and it needs
    [dict.iteritems], so it runs on Python 2, where [/] on two ints rounds down.  Floats are
    exact rationals. *)
From Verif Require Import Base BaseQ.
Open Scope Z_scope.

(** a Python number *)
Inductive num := PInt (z : Z) | PFloat (q : Qc).
(** the number meant *)
Definition val (a : num) : Qc := match a with PInt z => Zc z | PFloat q => q end.
(** [a + b], [a - b], [a * b]: int if both are *)
Definition num_add (a b : num) : num :=
  match a, b with PInt x, PInt y => PInt (x + y) | _, _ => PFloat (val a + val b) end.
Definition num_sub (a b : num) : num :=
  match a, b with PInt x, PInt y => PInt (x - y) | _, _ => PFloat (val a - val b) end.
Definition num_mul (a b : num) : num :=
  match a, b with PInt x, PInt y => PInt (x * y) | _, _ => PFloat (val a * val b) end.
(** [a / n] for an int [n] that is not 0 *)
Definition num_div (py2 : bool) (a : num) (n : Z) : num :=
  match a with
  | PInt x => if py2 then PInt (x / n) else PFloat (Zc x / Zc n)
  | PFloat q => PFloat (q / Zc n)
  end.

(** mcts.py:60-62 [update]: [_n_visits] and [_Q] *)
Definition update_stat (py2 : bool) (s : nat * num) (leaf_value : num) : nat * num :=
  let n := S (fst s) in
  (n, num_add (snd s) (num_div py2 (num_sub leaf_value (snd s)) (Z.of_nat n))).
(** mcts.py:19-20, then one [update] per value *)
Definition stat_after (py2 : bool) (vs : list num) : nat * num := fold_left (update_stat py2) vs (0%nat, PInt 0).

(** mcts.py:164-166: [v] is what the value function and [z] what the rollout returns *)
Definition leaf_num (lmbda v : num) (z : Z) : num :=
  let v := if Qcltb (val lmbda) (Zc 1) then v else PInt 0 in
  let z := if Qcltb (Zc 0) (val lmbda) then z else 0 in
  num_add (num_mul (num_sub (PInt 1) lmbda) v) (num_mul lmbda (PInt z)).
