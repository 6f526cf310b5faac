(** What a running average is. *)
From Verif Require Import Base BaseQ.
(** sum *)
Definition qsum (l : list Qc) : Qc := fold_right Qcplus 0%Qc l.
(** [m] is the average of [l] *)
Definition average (l : list Qc) (m : Qc) : Prop := (m * Zc (Z.of_nat (length l)) = qsum l)%Qc.
