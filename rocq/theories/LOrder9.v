(** Superlattices in order. *)
From Coq Require Import Sorted.
From Verif Require Import Base LBase BaseQ LQ SLattice SGeneralCell SSubst SSym MGeneralCell MHnf LMat3 LHnf LSuper LSuper2 SOrder SOrder2 LSort LOrder.
Set Implicit Arguments.
Unset Strict Implicit.
Open Scope Z_scope.

Section Firsts.
Variables (rots : list (mat Z)) (n : Z) (il : bool).
Hypothesis G : rot_group rots.
Hypothesis N : 0 < n < 2000.
Let R (s t : slcell) := lat_equiv rots (sl_H s) (sl_H t).
Lemma sl_firsts l : forall acc seen, Forall (good rots n) acc -> Forall (good rots n) l ->
  (forall x, (exists y, In y acc /\ R x y) <-> (exists y, In y seen /\ R y x)) ->
  exists s, foldM (nodup_step il) acc l = Ok (acc ++ s) /\ firsts R seen l s.
Proof.
  induction l as [|x l IH]; intros acc seen A L I.
  - exists []. cbn. rewrite app_nil_r. split; [reflexivity|constructor].
  - inversion L as [|? ? X L']; subst. destruct (sl_in_spec il G N X A) as (b & B & S).
    cbn [foldM]. unfold nodup_step at 1. rewrite B. cbn [bind]. destruct b; cbn [bind].
    + pose proof (proj1 S eq_refl) as E. fold (R x) in E. apply (I x) in E. destruct E as [y [Hy Ry]].
      destruct (IH acc (x :: seen) A L') as [s [E F]].
      { intros z. rewrite I. split; intros [w [Hw Rw]].
        - exists w. split; [now right|exact Rw].
        - destruct Hw as [<-|Hw]; [|eauto]. exists y. split; [exact Hy|]. eapply lat_equiv_trans; [exact G|exact Ry|exact Rw]. }
      exists s. split; [exact E|]. apply firsts_old with y; assumption.
    + assert (A' : Forall (good rots n) (acc ++ [x])) by (apply Forall_app; split; [exact A|now constructor]).
      destruct (IH (acc ++ [x]) (x :: seen) A' L') as [s [E F]].
      { intros z. split; intros [w [Hw Rw]].
        - apply in_app_iff in Hw. destruct Hw as [Hw|[<-|[]]].
          + destruct (proj1 (I z)) as [y [Hy Ry]]; [eauto|]. exists y. split; [now right|exact Ry].
          + exists x. split; [now left|]. now apply lat_equiv_sym.
        - destruct Hw as [<-|Hw].
          + exists x. split; [apply in_app_iff; right; now left|]. now apply lat_equiv_sym.
          + destruct (proj2 (I z)) as [y [Hy Ry]]; [eauto|]. exists y. split; [apply in_app_iff; now left|exact Ry]. }
      exists (x :: s). rewrite <- app_assoc in E. split; [exact E|]. apply firsts_new; [|exact F].
      intros y Hy Ry. assert (K : false = true); [|discriminate]. apply S. destruct (proj2 (I x)) as [z [Hz Rz]]; [eauto|]. now exists z.
Qed.
End Firsts.

Lemma firsts_mats rots u il n ms : rot_group rots -> 0 < n < 2000 -> (forall h, In h ms -> zdet h = n) ->
  exists out, foldM (nodup_step il) [] (List.map (SuperLatticeCell_new rots u) ms) = Ok out /\
    firsts (lat_equiv rots) [] ms (List.map sl_H out).
Proof.
  intros G N D. destruct (@sl_firsts rots n il G N (List.map (SuperLatticeCell_new rots u) ms) [] []) as [s [E F]].
  - constructor.
  - apply Forall_forall. intros s S. apply in_map_iff in S. destruct S as (h & <- & H). split; [reflexivity|]. cbn. rewrite (D h H). lia.
  - intros x. split; intros [y [[] _]].
  - exists s. split; [exact E|]. change (@nil slcell) with (List.map (SuperLatticeCell_new rots u) []) in F. apply firsts_map in F.
    destruct F as [kept [-> F]]. rewrite map_map. cbn. now rewrite map_id.
Qed.

Lemma zrange_sorted n : StronglySorted Z.lt (zrange n).
Proof. unfold zrange. apply sorted_map with lt; [|apply seq_sorted]. intros x y _ _ H. lia. Qed.
Lemma nodup_sorted A (l : list A) : NoDup l -> StronglySorted (fun a b => a <> b) l.
Proof. induction 1 as [|x l H ND IH]; constructor; [assumption|]. apply Forall_forall. intros y Hy ->. contradiction. Qed.

Lemma hrow_sorted n a c : sorted_blocks (hrow n a c).
Proof.
  unfold sorted_blocks, hrow. rewrite <- flat_map_concat_map. apply sorted_flat with Z.lt; [| |apply zrange_sorted].
  - intros b _. rewrite <- flat_map_concat_map. apply sorted_flat with Z.lt; [| |apply zrange_sorted].
    + intros d _. apply sorted_map with Z.lt; [|apply zrange_sorted]. intros e e' _ _ L _. unfold off_before; cbn. lia.
    + intros d d' u v _ _ L Hu Hv _. apply in_map_iff in Hu, Hv. destruct Hu as [e [<- _]], Hv as [e' [<- _]]. unfold off_before; cbn. lia.
  - intros b b' u v _ _ L Hu Hv _. apply in_concat in Hu, Hv. destruct Hu as [l1 [K1 Hu]], Hv as [l2 [K2 Hv]].
    apply in_map_iff in K1, K2. destruct K1 as [d [<- _]], K2 as [d' [<- _]].
    apply in_map_iff in Hu, Hv. destruct Hu as [e [<- _]], Hv as [e' [<- _]]. unfold off_before; cbn. lia.
Qed.

Lemma hnf_sorted sl n l : set_order sl -> 0 < n -> hnf_mats sl n = Ok l -> sorted_blocks l.
Proof.
  intros SL N E. destruct (facs_ok SL N) as (E0 & ND & F). unfold hnf_mats in E. rewrite E0 in E. cbn in E.
  rewrite (@mapM_ok_map _ _ _ (fun a => concat (map (hrow n a) (facs sl (n / a))))) in E.
  2:{ intros a A. apply F in A. destruct A as [A D]. destruct (div_pos_divide N A D) as [P _].
      destruct (facs_ok SL P) as (E' & _). rewrite E'. reflexivity. }
  cbn in E. injection E as <-. rewrite <- flat_map_concat_map. apply sorted_flat with (fun a b => a <> b); [| |now apply nodup_sorted].
  - intros a A. apply F in A. destruct A as [A D]. destruct (div_pos_divide N A D) as [P _]. rewrite <- flat_map_concat_map.
    apply sorted_flat with (fun a b => a <> b); [intros c _; apply hrow_sorted| |apply nodup_sorted, (facs_ok SL P)].
    intros c c' u v _ _ NE Hu Hv [_ [K _]]. apply In_hrow in Hu, Hv. destruct Hu as (? & ? & ? & -> & _), Hv as (? & ? & ? & -> & _). cbn in K. contradiction.
  - intros a a' u v _ _ NE Hu Hv [K _]. apply In_concat_map in Hu, Hv. destruct Hu as (? & _ & Hu), Hv as (? & _ & Hv).
    apply In_hrow in Hu, Hv. destruct Hu as (? & ? & ? & -> & _), Hv as (? & ? & ? & -> & _). cbn in K. contradiction.
Qed.
Lemma hnf2_sorted sl n l : set_order sl -> 0 < n -> hnf2_mats sl n = Ok l -> sorted_blocks l.
Proof.
  intros SL N E. destruct (facs_ok SL N) as (E0 & ND & F). unfold hnf2_mats in E. rewrite E0 in E. cbn in E. injection E as <-.
  rewrite <- flat_map_concat_map. apply sorted_flat with (fun a b => a <> b); [| |now apply nodup_sorted].
  - intros a _. apply sorted_map with Z.lt; [|apply zrange_sorted]. intros b b' _ _ L _. unfold off_before; cbn. lia.
  - intros a a' u v _ _ NE Hu Hv [K _]. apply in_map_iff in Hu, Hv. destruct Hu as [b [<- _]], Hv as [b' [<- _]]. cbn in K. contradiction.
Qed.
