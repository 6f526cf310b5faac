(** Base: Python values and control flow used by every model file.
    Exceptions are values ([res]); a finite generator run is a [trace]. *)
From Coq Require Export List ZArith Lia Bool Arith Permutation.
Export ListNotations.
Set Implicit Arguments.

(** Exceptions the modelled code can raise. *)
Inductive exn :=
| IndexError | KeyError | ValueError | TypeError | AttributeError
| NameError | UnboundLocalError | LinAlgError | SystemExit
| FileNotFoundError | ZeroDivisionError | ModuleNotFoundError.

Inductive res (A : Type) :=
| Ok (a : A)
| Raise (e : exn).
Arguments Ok {A} a.
Arguments Raise {A} e.

Definition bind {A B} (x : res A) (f : A -> res B) : res B :=
  match x with Ok a => f a | Raise e => Raise e end.
Notation "'do' x <- a ; b" := (bind a (fun x => b))
  (at level 200, x pattern, a at level 100, b at level 200, right associativity).

Definition is_ok {A} (x : res A) : bool :=
  match x with Ok _ => true | Raise _ => false end.

(** [f(x) for x in l], stopping at the first exception. *)
Fixpoint mapM {A B} (f : A -> res B) (l : list A) : res (list B) :=
  match l with
  | [] => Ok []
  | x :: t => do y <- f x; do ys <- mapM f t; Ok (y :: ys)
  end.

(** for-loop threading a state, stopping at the first exception. *)
Fixpoint foldM {A S} (f : S -> A -> res S) (s : S) (l : list A) : res S :=
  match l with
  | [] => Ok s
  | x :: t => do s' <- f s x; foldM f s' t
  end.

(** l[i] for a non-negative index. *)
Definition get_nth {A} (l : list A) (i : nat) : res A :=
  match nth_error l i with Some x => Ok x | None => Raise IndexError end.

(** l[i] = v for a non-negative index (new list returned). *)
Fixpoint set_nth {A} (l : list A) (i : nat) (v : A) : res (list A) :=
  match l, i with
  | [], _ => Raise IndexError
  | _ :: t, O => Ok (v :: t)
  | x :: t, S j => do t' <- set_nth t j v; Ok (x :: t')
  end.

(** Total update: out-of-range indices leave the list alone. *)
Fixpoint upd {A} (l : list A) (i : nat) (v : A) : list A :=
  match l, i with
  | [], _ => []
  | _ :: t, O => v :: t
  | x :: t, S j => x :: upd t j v
  end.

(** numpy fancy indexing x[p] with non-negative integer indices. *)
Definition take_idx {A} (x : list A) (p : list nat) : res (list A) :=
  mapM (get_nth x) p.

(** Python index normalisation for l[i], i possibly negative. *)
Definition norm_index (n : nat) (i : Z) : option nat :=
  if (0 <=? i)%Z
  then if (i <? Z.of_nat n)%Z then Some (Z.to_nat i) else None
  else if (0 <=? i + Z.of_nat n)%Z then Some (Z.to_nat (i + Z.of_nat n)) else None.

Definition py_get {A} (l : list A) (i : Z) : res A :=
  match norm_index (length l) i with
  | Some j => get_nth l j
  | None => Raise IndexError
  end.

Definition py_set {A} (l : list A) (i : Z) (v : A) : res (list A) :=
  match norm_index (length l) i with
  | Some j => set_nth l j v
  | None => Raise IndexError
  end.

(** What a consumer that exhausts a finite generator observes: the items
    yielded, then either StopIteration ([None]) or an exception. *)
Record trace (A : Type) := mkTrace { items : list A; stop : option exn }.
Arguments mkTrace {A} items stop.

Definition trace_of_list {A} (l : list A) : trace A := mkTrace l None.

(** Generator [for x in l: yield f(x)]. *)
Fixpoint gen_map {A B} (f : A -> res B) (l : list A) : trace B :=
  match l with
  | [] => mkTrace [] None
  | x :: t =>
      match f x with
      | Raise e => mkTrace [] (Some e)
      | Ok y => let r := gen_map f t in mkTrace (y :: items r) (stop r)
      end
  end.

Definition memZ (z : Z) (l : list Z) : bool := existsb (Z.eqb z) l.

(** range(n) *)
Definition range (n : nat) : list nat := seq 0 n.

(** enumerate(l) *)
Definition enumerate {A} (l : list A) : list (nat * A) := combine (range (length l)) l.
