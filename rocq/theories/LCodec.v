(** A dumper and a loader with [load (dump d) = Ok d]: the assumption about the YAML library
    in the reading-back theorems can be met. *)
From Coq Require Import String Ascii QArith.
From Verif Require Import Base BaseQ MIO.
Open Scope list_scope.
Open Scope nat_scope.

Record codec (A : Type) := mkCodec { enc : A -> string -> string; dec : string -> option (A * string);
  dec_enc : forall a s, dec (enc a s) = Some (a, s) }.
Arguments enc {A}. Arguments dec {A}. Arguments dec_enc {A}.

Fixpoint epos (p : positive) (s : string) : string :=
  match p with xO q => String "0" (epos q s) | xI q => String "1" (epos q s) | xH => String "." s end.
Fixpoint dpos (s : string) : option (positive * string) :=
  match s with
  | String "0" t => match dpos t with Some (p, r) => Some (xO p, r) | None => None end
  | String "1" t => match dpos t with Some (p, r) => Some (xI p, r) | None => None end
  | String "." t => Some (xH, t)
  | _ => None end.
Definition pos_codec : codec positive.
Proof. refine (@mkCodec positive epos dpos _). intros p s. induction p as [p IH|p IH|]; cbn; [rewrite IH|rewrite IH|]; reflexivity. Defined.
Fixpoint enat (n : nat) (s : string) : string := match n with 0 => String "." s | S m => String "+" (enat m s) end.
Fixpoint dnat (s : string) : option (nat * string) :=
  match s with
  | String "+" t => match dnat t with Some (n, r) => Some (S n, r) | None => None end
  | String "." t => Some (0, t)
  | _ => None end.
Definition nat_codec : codec nat.
Proof. refine (@mkCodec nat enat dnat _). intros n s. induction n as [|n IH]; cbn; [|rewrite IH]; reflexivity. Defined.
Definition pair_codec A B (x : codec A) (y : codec B) : codec (A * B).
Proof.
  refine (@mkCodec (A * B) (fun ab s => enc x (fst ab) (enc y (snd ab) s))
    (fun s => match dec x s with Some (a, r) => match dec y r with Some (b, r') => Some ((a, b), r') | None => None end | None => None end) _).
  intros [a b] s. cbn. now rewrite (dec_enc x), (dec_enc y).
Defined.
Definition map_codec A B (f : A -> B) (g : B -> A) (H : forall b, f (g b) = b) (x : codec A) : codec B.
Proof.
  refine (@mkCodec B (fun b s => enc x (g b) s) (fun s => match dec x s with Some (a, r) => Some (f a, r) | None => None end) _).
  intros b s. now rewrite (dec_enc x), H.
Defined.
Fixpoint eall {A} (x : codec A) (l : list A) (s : string) : string := match l with [] => s | a :: l => enc x a (eall x l s) end.
Fixpoint dall {A} (x : codec A) (n : nat) (s : string) : option (list A * string) :=
  match n with
  | 0 => Some ([], s)
  | S m => match dec x s with Some (a, r) => match dall x m r with Some (l, r') => Some (a :: l, r') | None => None end | None => None end end.
Lemma dall_eall A (x : codec A) l s : dall x (List.length l) (eall x l s) = Some (l, s).
Proof. induction l as [|a l IH]; [reflexivity|]. cbn. now rewrite (dec_enc x), IH. Qed.
Definition list_codec A (x : codec A) : codec (list A).
Proof.
  refine (@mkCodec (list A) (fun l s => enc nat_codec (List.length l) (eall x l s)) (fun s => match dec nat_codec s with Some (n, r) => dall x n r | None => None end) _).
  intros l s. rewrite (dec_enc nat_codec). apply dall_eall.
Defined.

Definition Z_codec : codec Z.
Proof.
  refine (@map_codec (nat * positive) Z (fun p => match fst p with 0 => Z0 | 1 => Zpos (snd p) | _ => Zneg (snd p) end)
    (fun z => match z with Z0 => (0, xH) | Zpos p => (1, p) | Zneg p => (2, p) end) _ (pair_codec nat positive nat_codec pos_codec)).
  intros []; reflexivity.
Defined.
Definition Qc_codec : codec Qc.
Proof.
  refine (@map_codec (Z * positive) Qc (fun p => Q2Qc (fst p # snd p)) (fun q => (Qnum (this q), Qden (this q))) _ (pair_codec Z positive Z_codec pos_codec)).
  intros q. cbn [fst snd]. apply Qc_is_canon. destruct q as [[n d] H]. cbn [this Q2Qc Qnum Qden]. apply Qred_correct.
Defined.
Definition vec_codec A (x : codec A) : codec (vec A).
Proof.
  refine (@map_codec (A * (A * A)) (vec A) (fun p => V3 (fst p) (fst (snd p)) (snd (snd p))) (fun v => (vx v, (vy v, vz v))) _
    (pair_codec A (A * A) x (pair_codec A A x x))).
  intros []; reflexivity.
Defined.
Definition body_codec : codec (mat Qc * (list (vec Qc) * (list Z * Qc))) :=
  pair_codec _ _ (vec_codec _ (vec_codec _ Qc_codec)) (pair_codec _ _ (list_codec _ (vec_codec _ Qc_codec)) (pair_codec _ _ (list_codec _ Z_codec) Qc_codec)).

Definition c_dump (d : ydoc) : string := enc body_codec (y_lattice d, (y_positions d, (y_numbers d, y_zoom d))) (y_comment d).
Definition c_load (s : string) : res ydoc :=
  match dec body_codec s with
  | Some ((l, (p, (n, z))), c) => Ok (mkY c l p n z)
  | None => Raise ValueError end.
Lemma c_load_dump d : c_load (c_dump d) = Ok d.
Proof. unfold c_load, c_dump. rewrite (dec_enc body_codec). now destruct d. Qed.
