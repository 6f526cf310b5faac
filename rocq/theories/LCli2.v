(** The binary applications: ocumaker and ocubiter. *)
From Coq Require Import String Ascii.
From Verif Require Import Base BaseQ LBase SElement MElement LElement MGeneralCell SGeneralCell LGeneralCell MHnf MRestrict MSogen MText LText MIO SIO LIO LIO2 LIO3 LIO4 LIO5 LIO6
  SSubst SCli MCli SCliApp LCli.
Set Implicit Arguments.
Unset Strict Implicit.
Open Scope list_scope.
Notation length := List.length.
Notation "a +++ b" := (String.append a b) (at level 60, right associativity).

Lemma selected_ext A (V W : A -> Prop) l k : (forall x, V x <-> W x) -> selected V l k -> selected W l k.
Proof. intros H S. induction S; constructor; try assumption; firstorder. Qed.
Lemma selected_all A (W : A -> Prop) l k : (forall x, In x l -> W x) -> selected W l k -> k = l.
Proof. intros H S. induction S; [reflexivity| |]; [f_equal; apply IHS; intros; apply H; now right|]. exfalso. auto using in_eq. Qed.
Lemma selected_subseq A (W : A -> Prop) l k : selected W l k -> subseq k l.
Proof. intros S. induction S; constructor; auto. Qed.
Lemma selected_in A (W : A -> Prop) l k x : selected W l k -> In x k <-> In x l /\ W x.
Proof.
  intros S. induction S as [|y l k H S IH|y l k H S IH]; cbn; [tauto| |]; rewrite IH.
  - split; [intros [->|[? ?]]; auto|intros [[->|?] ?]; auto].
  - split; [intros [? ?]; auto|intros [[->|?] ?]; tauto].
Qed.

Section App.
Context (spg_ops : gcell -> list symop) (spg_wyckoffs : gcell -> list string)
  (psize : mat Qc * list (vec Qc) * list Z -> nat)
  (standardize : mat Qc * list (vec Qc) * list Z -> mat Qc * list (vec Qc) * list Z)
  (h : list Z -> Z) (dump : ydoc -> string).
Notation refine := (get_refined_pcell standardize).

Lemma accepted_iff mpr tr c : accepted psize mpr tr c = Ok true <-> wanted psize mpr tr c.
Proof.
  unfold accepted, wanted, is_primitive. split.
  - destruct mpr; cbn [andb].
    + destruct (Nat.eqb_spec (psize (spg_cell c)) (length (snd (spg_cell c)))); cbn [negb]; [|discriminate].
      intros H. split; [auto|]. intros z d ->. exact H.
    + intros H. split; [discriminate|]. intros z d ->. exact H.
  - intros [H1 H2].
    assert (E : mpr && negb (psize (spg_cell c) =? length (snd (spg_cell c)))%nat = false).
    { destruct mpr; [|reflexivity]. rewrite (H1 eq_refl), Nat.eqb_refl. reflexivity. }
    rewrite E. destruct tr as [[z d]|]; [apply H2; reflexivity|reflexivity].
Qed.

Lemma final_cell_iff refined c c' : final_cell standardize refined c = Ok c' <-> written_cell refine refined c c'.
Proof. unfold final_cell, written_cell. destruct refined; [reflexivity|]. split; [now intros [= <-]|now intros ->]. Qed.

Lemma bind_ok A B (m : res A) (f : A -> res B) b : bind m f = Ok b <-> exists a, m = Ok a /\ f a = Ok b.
Proof. destruct m as [a|e]; cbn; split; [eauto|intros (? & [= ->] & H); exact H|discriminate|intros (? & ? & _); discriminate]. Qed.

Lemma path_eq dir com sfx mode : slash dir (structure_name com sfx mode) = dir +++ "/STRUCTURE_" +++ com +++ "_" +++ sfx +++ "." +++ mode.
Proof. reflexivity. Qed.

Lemma write_named g name fs r : name <> ""%string -> write_file dump g (Some name) None fs = Ok r <->
  exists f t, choose name None = Some f /\ render dump f g = Ok t /\ r = (put fs name t, ""%string).
Proof.
  intros N. unfold write_file. apply String.eqb_neq in N. rewrite N. destruct (choose name None) as [f|].
  - rewrite bind_ok. split; [intros (t & E & [= <-]); eauto|intros (? & t & [= <-] & E & ->); eauto].
  - split; [discriminate|intros (? & ? & ? & _); discriminate].
Qed.

Lemma slash_nonempty a b : slash a b <> ""%string.
Proof. unfold slash. destruct a; discriminate. Qed.

Lemma save_iff a dir sfx c fs fs' : save standardize dump a dir sfx c fs = Ok fs' <->
  exists w, structure_file refine dump (a_refined a) (a_outmode a) dir sfx c w /\ fs' = put fs (fst w) (snd w).
Proof.
  unfold save. rewrite bind_ok. split.
  - intros (c' & E1 & H). apply bind_ok in H as (com & E2 & H). apply bind_ok in H as (r & E3 & H). injection H as <-.
    apply write_named in E3; [|apply slash_nonempty]. destruct E3 as (f & t & E3 & E4 & ->).
    exists (slash dir (structure_name com sfx (a_outmode a)), t). split; [|reflexivity].
    exists c', com, f. cbn [fst snd]. apply final_cell_iff in E1. auto.
  - intros ((p, t) & (c' & com & f & E1 & E2 & E3 & E4 & E5) & ->). cbn [fst snd] in *. exists c'. split; [now apply final_cell_iff|].
    apply bind_ok. exists com. split; [exact E2|]. apply bind_ok. exists (put fs p t, ""%string). split; [|reflexivity].
    apply write_named; [apply slash_nonempty|]. exists f, t. rewrite path_eq, <- E3. auto.
Qed.

Lemma run_app_spec a gens cwd rd suffix fs ds o tr : ds (structures_dir cwd (a_comment a) rd) = false ->
  make_occ spg_ops spg_wyckoffs (a_cell a) = Ok o -> restriction_of (a_tr a) = Ok tr ->
  let r := run_app spg_ops spg_wyckoffs psize standardize dump a gens cwd rd suffix fs ds in
  run_result psize standardize dump a tr (structures_dir cwd (a_comment a) rd) suffix (List.flat_map (@items gcell) (gens o)) fs r /\
  (o_exn r = None -> Forall (fun t => stop t = None) (gens o)) /\ o_dirs r = mkdir ds (structures_dir cwd (a_comment a) rd).
Proof.
  intros D MO RT. unfold run_app. rewrite D, MO, RT. set (dir := structures_dir cwd (a_comment a) rd).
  destruct (@emit_traces_spec (accepted psize (a_mpr a) tr) (fun k => save standardize dump a dir (suffix k))
     (fun k => structure_file refine dump (a_refined a) (a_outmode a) dir (suffix k)) (@after_writes string string)) with (ts := gens o) (k := 0%nat) (fs := fs) as [H HS].
  { exact (@aw_nil _ _). } { exact (aw_app string_dec). }
  { intros k c f f' E. apply save_iff in E. destruct E as ((p, t) & HR & ->). exists (p, t). split; [exact HR|apply aw_put]. }
  destruct (emit_traces _ _ (gens o) 0 fs) as [[k' fs'] e]. cbn [fst snd o_files o_exn o_dirs] in *.
  destruct H as (d & rest & kept & ws & E1 & E2 & E3 & E4 & E5 & E6). cbn [fst snd] in *.
  split; [|split; [exact HS|reflexivity]].
  exists d, rest, kept, ws. split; [exact E1|]. split; [|split; [exact E3|split; [exact E4|exact E6]]].
  eapply selected_ext; [|exact E2]. intros c. apply accepted_iff.
Qed.

(** ** No error *)
Lemma emit_total A (acc : A -> res bool) sv cells : (forall c, In c cells -> exists b, acc c = Ok b) ->
  (forall c k fs, In c cells -> acc c = Ok true -> exists fs', sv k c fs = Ok fs') ->
  forall k fs, snd (emit acc sv cells k fs) = None.
Proof.
  induction cells as [|c rest IH]; intros HA HS k fs; cbn [emit]; [reflexivity|].
  destruct (HA c (or_introl eq_refl)) as [b E]. rewrite E. destruct b.
  - destruct (HS c k fs (or_introl eq_refl) E) as [fs' ->]. apply IH; intros; [apply HA|apply HS]; try now right. assumption.
  - apply IH; intros; [apply HA|apply HS]; try now right. assumption.
Qed.
Lemma emit_traces_total acc sv ts : Forall (fun t => stop t = None) ts ->
  (forall c, In c (List.flat_map (@items gcell) ts) -> exists b, acc c = Ok b) ->
  (forall c k fs, In c (List.flat_map (@items gcell) ts) -> acc c = Ok true -> exists fs', sv k c fs = Ok fs') ->
  forall k fs, snd (emit_traces acc sv ts k fs) = None.
Proof.
  induction ts as [|t ts IH]; intros F HA HS k fs; cbn [emit_traces]; [reflexivity|].
  inversion F; subst. cbn [List.flat_map] in *.
  assert (E : snd (emit acc sv (items t) k fs) = None).
  { apply emit_total; intros; [apply HA|apply HS]; try (apply in_app_iff; now left). assumption. }
  unfold emit_trace. destruct (emit acc sv (items t) k fs) as [[k' fs'] e]. cbn in E. subst e. rewrite H1.
  apply IH; [assumption| |]; intros; [apply HA|apply HS]; try (apply in_app_iff; now right). assumption.
Qed.

Lemma spelled_refl w : spelled w w.
Proof. induction w; constructor; [now left|assumption]. Qed.
Lemma ends_mode_choose x mode : mode = "vasp"%string \/ mode = "yaml"%string -> exists f, choose (x +++ "." +++ mode) None = Some f.
Proof.
  intros M. destruct (choose_spec (x +++ "." +++ mode) None) as (_ & _ & N).
  destruct (choose (x +++ "." +++ mode) None) as [f|] eqn:E; [eauto|]. exfalso. destruct (proj1 N eq_refl) as [NY NV].
  destruct M as [-> | ->].
  - apply NV. right. left. exists x, ".vasp"%string. split; [apply spelled_refl|reflexivity].
  - apply NY. right. exists x, ".yaml"%string, ""%string. split; [apply spelled_refl|reflexivity].
Qed.

Lemma render_total f c : Forall supported (numbers c) -> exists t, render dump f c = Ok t.
Proof.
  intros S. destruct (mapM_to_name S) as (names & E & _). destruct f; cbn [render].
  - unfold yaml_doc. rewrite E. cbn. eauto.
  - unfold VaspOutput_new. rewrite E. cbn. eauto.
Qed.
Lemma comment_total c : Forall supported (numbers c) -> exists com, comment c = Ok com.
Proof. intros S. destruct (comment_spec c S) as (s & E & _). eauto. Qed.

Lemma save_total a dir sfx c fs : a_outmode a = "vasp"%string \/ a_outmode a = "yaml"%string -> writable standardize (a_refined a) c ->
  exists fs', save standardize dump a dir sfx c fs = Ok fs'.
Proof.
  intros M (c' & HW & S). destruct (comment_total S) as (com & EC).
  destruct (ends_mode_choose (dir +++ "/STRUCTURE_" +++ com +++ "_" +++ sfx) M) as (f & EF).
  destruct (render_total f S) as (t & ET).
  exists (put fs (dir +++ "/STRUCTURE_" +++ com +++ "_" +++ sfx +++ "." +++ a_outmode a) t).
  apply save_iff. eexists (_, t). split; [|reflexivity]. exists c', com, f. cbn [fst snd]. repeat (split; [eassumption||reflexivity|]).
  split; [|exact ET]. rewrite <- EF. f_equal. rewrite !app_assoc_s. reflexivity.
Qed.

Lemma accepted_total mpr tr c : (forall z d, tr = Some (z, d) -> exists b, min_distance_satisfied (Some z) d c = Ok b) ->
  exists b, accepted psize mpr tr c = Ok b.
Proof.
  intros H. unfold accepted. destruct (mpr && _); [eauto|]. destruct tr as [[z d]|]; [apply H; reflexivity|eauto].
Qed.

Lemma run_app_total a gens cwd rd suffix fs ds o tr : ds (structures_dir cwd (a_comment a) rd) = false ->
  make_occ spg_ops spg_wyckoffs (a_cell a) = Ok o -> restriction_of (a_tr a) = Ok tr ->
  a_outmode a = "vasp"%string \/ a_outmode a = "yaml"%string ->
  Forall (fun t => stop t = None) (gens o) ->
  (forall c, In c (List.flat_map (@items gcell) (gens o)) -> writable standardize (a_refined a) c /\
     forall z d, tr = Some (z, d) -> exists b, min_distance_satisfied (Some z) d c = Ok b) ->
  o_exn (run_app spg_ops spg_wyckoffs psize standardize dump a gens cwd rd suffix fs ds) = None.
Proof.
  intros D MO RT M F H. unfold run_app. rewrite D, MO, RT.
  pose proof (@emit_traces_total (accepted psize (a_mpr a) tr)
    (fun k => save standardize dump a (structures_dir cwd (a_comment a) rd) (suffix k)) (gens o) F) as T.
  specialize (T (fun c I => accepted_total _ (proj2 (H c I)))).
  specialize (T (fun c k f I _ => save_total _ _ _ M (proj1 (H c I))) 0%nat fs).
  destruct (emit_traces _ _ (gens o) 0 fs) as [[k' fs'] e]. exact T.
Qed.
End App.

(** ** Names *)
Lemma app_inj_l a b c : a +++ b = a +++ c -> b = c.
Proof. induction a; cbn; [auto|]. intros [= H]. auto. Qed.
Lemma app_inj_len a b c d : String.length a = String.length b -> a +++ c = b +++ d -> a = b /\ c = d.
Proof.
  revert b. induction a as [|x a IH]; intros [|y b] L E; try discriminate; cbn in *; [auto|].
  injection E as -> E. injection L as L. destruct (IH b L E) as [-> ->]. auto.
Qed.
Lemma length_app_s a b : String.length (a +++ b) = (String.length a + String.length b)%nat.
Proof. induction a; cbn; congruence. Qed.
Lemma path_inj dir com sfx com' sfx' mode : String.length sfx = String.length sfx' ->
  dir +++ "/STRUCTURE_" +++ com +++ "_" +++ sfx +++ "." +++ mode = dir +++ "/STRUCTURE_" +++ com' +++ "_" +++ sfx' +++ "." +++ mode ->
  com = com' /\ sfx = sfx'.
Proof.
  intros L E. apply app_inj_l, app_inj_l in E.
  assert (LC : String.length com = String.length com').
  { apply (f_equal String.length) in E. rewrite !length_app_s in E. lia. }
  destruct (app_inj_len LC E) as [-> E']. apply app_inj_l in E'. destruct (app_inj_len L E') as [-> _]. auto.
Qed.
