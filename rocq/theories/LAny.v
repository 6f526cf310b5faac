(** Sessions in any words. *)
From Coq Require Import String Permutation.
From Verif Require Import Base BaseQ LQ LBase MElement SElement LElement MGeneralCell LGeneralCell MHnf MIO MModCell LModCell SCli MCli SCliArgs LCli2 SFlow MOpt SOpt SRun.
Set Implicit Arguments.
Unset Strict Implicit.
Open Scope string_scope.
Open Scope list_scope.
Notation length := List.length.

Lemma py_get_In A (l : list A) i x : py_get l i = Ok x -> In x l.
Proof. intros H. destruct (py_get_spec l i) as [(l1 & y & l2 & -> & _ & E)|[_ E]]; [|congruence]. rewrite E in H. injection H as <-. apply in_or_app. right. now left. Qed.
Lemma get_nth_In A (l : list A) i x : get_nth l i = Ok x -> In x l.
Proof. unfold get_nth. destruct (nth_error l i) as [y|] eqn:E; [|discriminate]. intros [= <-]. eapply nth_error_In; eauto. Qed.
Lemma mapM_from A B (f : A -> res B) (P : B -> Prop) l l' : (forall a b, f a = Ok b -> P b) -> mapM f l = Ok l' -> Forall P l'.
Proof.
  intros H. revert l'. induction l as [|a l IH]; intros l'; cbn [mapM].
  - intros [= <-]. constructor.
  - intros E. apply bind_ok in E as (b & E1 & E). apply bind_ok in E as (t & E2 & E). injection E as <-. constructor; eauto.
Qed.
Lemma new_numbers lat pos nums g : GeneralCell_new lat pos nums = Ok g -> incl (numbers g) nums.
Proof.
  unfold GeneralCell_new. intros E. apply bind_ok in E as (i & _ & E). apply bind_ok in E as (p & _ & E). apply bind_ok in E as (n & E1 & E). injection E as <-. cbn [numbers].
  intros z I. pose proof (@mapM_from _ _ _ (fun z => In z nums) _ _ (fun a b H => get_nth_In H) E1) as F. rewrite Forall_forall in F. auto.
Qed.
Lemma shaped_numbers std rots u h g : shaped_super std rots u h g -> incl (numbers g) (numbers u).
Proof.
  intros (c & E1 & E2). assert (I1 : incl (numbers c) (numbers u)).
  { unfold to_general_cell, build_supercell in E1. apply bind_ok in E1 as (si & _ & E1). apply bind_ok in E1 as (o & _ & E1). apply bind_ok in E1 as (p & _ & E1). apply bind_ok in E1 as (n & N & E1).
    apply new_numbers in E1. intros z I. apply E1 in I. unfold np_repeat in N. destruct (_ <? 0)%Z; [discriminate|]. injection N as <-.
    apply in_concat in I as (l & I & J). apply in_map_iff in I as (x & <- & I). apply repeat_spec in J. subst z. exact I. }
  unfold get_shaped_cell in E2. destruct (std _) as [[lat pos] idx]. apply bind_ok in E2 as (n & N & E2). apply new_numbers in E2. intros z I. apply E2 in I. apply I1.
  pose proof (@mapM_from _ _ _ (fun z => In z (numbers c)) _ _ (fun a b H => py_get_In H) N) as F. rewrite Forall_forall in F. auto.
Qed.
Lemma rounded_supported std rots u h g c : shaped_super std rots u h g -> rounded g c -> Forall supported (numbers u) -> Forall supported (numbers c).
Proof. intros S (_ & -> & _) F. rewrite Forall_forall in *. intros z I. apply F. exact (shaped_numbers S I). Qed.
Lemma written_mode evs mode : single evs "outmode" (among ["vasp"; "yaml"]) "yaml" mode -> mode = "vasp" \/ mode = "yaml".
Proof. intros [[_ ->]|(v & _ & -> & [<-|[<-|[]]])]; auto. Qed.
