(** Specification of random pop sets, arrangements and lattice neighbourhoods. *)
From Verif Require Import Base BaseQ MArrange.
Set Implicit Arguments.
Open Scope nat_scope.

(** Which elements a set has after a history (latest call first, each with its outcome): the
    textbook reading of the calls. *)
Fixpoint mem_after V (h : list (op V * res V)) (x : V) : Prop :=
  match h with
  | [] => False
  | (OAdd y, _) :: t | (OPush y, _) :: t => x = y \/ mem_after t x
  | (OIor l, _) :: t => In x l \/ mem_after t x
  | (ODiscard y, _) :: t => mem_after t x /\ x <> y
  | (ORemove y, Ok _) :: t => mem_after t x /\ x <> y
  | (OPop _, Ok v) :: t | (OMPop, Ok v) :: t => mem_after t x /\ x <> v
  | (OClear, _) :: t => False
  | (ORemove _, Raise _) :: t | (OPop _, Raise _) :: t | (OMPop, Raise _) :: t => mem_after t x
  end.

(** The outcomes a set may show. *)
Definition allowed V (none : V) (h : list (op V * res V)) (o : op V) (r : res V) : Prop :=
  match o with
  | OAdd _ | OPush _ | ODiscard _ | OClear | OIor _ => r = Ok none
  | ORemove y => (mem_after h y /\ r = Ok none) \/ (~ mem_after h y /\ r = Raise KeyError)
  | OPop _ => (exists v, mem_after h v /\ r = Ok v) \/ ((forall v, ~ mem_after h v) /\ r = Ok none)
  | OMPop => (exists v, mem_after h v /\ r = Ok v) \/ ((forall v, ~ mem_after h v) /\ r = Raise KeyError)
  end.
Fixpoint valid_history V (none : V) (h : list (op V * res V)) : Prop :=
  match h with
  | [] => True
  | (o, r) :: t => allowed none t o r /\ valid_history none t
  end.

(** A connected self-avoiding arrangement grown from [start]. *)
Definition arrangement V (N : V -> V -> Prop) (start : V) (goal : nat) (path : list V) : Prop :=
  nth_error path 0 = Some start /\ length path = goal /\ NoDup path /\
  forall i p, 0 < i -> nth_error path i = Some p ->
    exists j q, j < i /\ nth_error path j = Some q /\ N q p.

(** Positions of a grid [nx * ny * nz] and nearness of their lattice points. *)
Definition in_grid (nx ny nz : nat) (p : list Z) : Prop :=
  exists x y z, p = [x; y; z] /\ (0 <= x < Z.of_nat nx)%Z /\ (0 <= y < Z.of_nat ny)%Z /\ (0 <= z < Z.of_nat nz)%Z.
Definition near (m : mat Qc) (delta : Qc) (p q : list Z) : Prop :=
  exists a b c x y z, p = [a; b; c] /\ q = [x; y; z] /\
  let v := vec_mat (vecZ (V3 (x - a) (y - b) (z - c))%Z) m in
  (vdot v v <= delta * delta)%Qc.
Definition neighbour (m : mat Qc) (delta : Qc) (nx ny nz : nat) (p q : list Z) : Prop :=
  in_grid nx ny nz q /\ q <> p /\ near m delta p q.

(** The same in the plane. *)
Definition in_grid2 (nx ny : nat) (p : list Z) : Prop :=
  exists x y, p = [x; y] /\ (0 <= x < Z.of_nat nx)%Z /\ (0 <= y < Z.of_nat ny)%Z.
Definition near2 (m : vec2 * vec2) (delta : Qc) (p q : list Z) : Prop :=
  exists a b x y, p = [a; b] /\ q = [x; y] /\
  let u := (Zc (x - a) * fst (fst m) + Zc (y - b) * fst (snd m))%Qc in
  let v := (Zc (x - a) * snd (fst m) + Zc (y - b) * snd (snd m))%Qc in
  (u * u + v * v <= delta * delta)%Qc.
Definition neighbour2 (m : vec2 * vec2) (delta : Qc) (nx ny : nat) (p q : list Z) : Prop :=
  in_grid2 nx ny q /\ q <> p /\ near2 m delta p q.

(** What a neighbour query must answer, given the grid, the position and its neighbours:
    [N] is the neighbour relation, [P] the positions. *)
Definition answers (P : list Z -> Prop) (N : list Z -> Prop) (p : list Z) (r : res (list pyval)) : Prop :=
  (~ P p -> r = Raise KeyError) /\
  (P p -> (forall q, P q -> q = p) -> r = Raise ValueError) /\
  (P p -> (exists q, P q /\ q <> p) -> (forall q, ~ N q) -> r = Raise TypeError) /\
  (P p -> forall q, N q -> (forall q', N q' -> q' = q) ->
     exists zs, r = Ok (List.map VInt zs) /\ NoDup zs /\ forall z, In z zs <-> In z q) /\
  (P p -> forall q1 q2, N q1 -> N q2 -> q1 <> q2 ->
     exists ps, r = Ok (List.map VTup ps) /\ NoDup ps /\ forall q, In q ps <-> N q).
