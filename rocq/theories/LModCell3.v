(** Lemmas for ModifiedCell: construction, copies, histories. *)
From Verif Require Import Base LBase BaseQ LQ SElement MElement LElement MGeneralCell LGeneralCell MHnf MRestrict MModCell SModCell LModCell LModCell2.
Set Implicit Arguments.
Unset Strict Implicit.
Open Scope list_scope.
Notation length := List.length.

Definition add_sites (h : heap) (ns : list site) : heap := mkHeap (h_site h ++ ns) (h_list h) (h_cell h).

(** ** constructor *)
Lemma new_sites_spec l : forall h,
  let f := fun s : vec Qc * Z => cbind (lift (Site_new (fst s) (EleNum (snd s)))) (fun v => new_site v) in
  (exists ns, cmapM f l h = (add_sites h ns, Ok (seq (length (h_site h)) (length l))) /\
     Forall2 (fun pz s => s_pos s = fst pz /\ from_num (snd pz) = Ok (s_ele s)) l ns /\
     Forall (fun pz => supported (snd pz)) l) \/
  (exists ns, cmapM f l h = (add_sites h ns, Raise IndexError) /\ ~ Forall (fun pz => supported (snd pz)) l).
Proof.
  cbv zeta. induction l as [|[p z] l IH]; intros h.
  - left. exists []. cbn. unfold add_sites, ret. rewrite app_nil_r. destruct h. repeat split; constructor.
  - set (f := fun s : vec Qc * Z => cbind (lift (Site_new (fst s) (EleNum (snd s)))) (fun v => new_site v)) in *.
    assert (ST : cmapM f ((p, z) :: l) h =
      match from_num z with
      | Ok sp => match cmapM f l (add_sites h [mkSite p sp]) with
                 | (h', Ok ys) => (h', Ok (length (h_site h) :: ys)) | (h', Raise e) => (h', Raise e) end
      | Raise e => (h, Raise e) end).
    { cbn. unfold cbind at 1. unfold f at 1, cbind at 1, lift. cbn. destruct (from_num z); reflexivity. }
    rewrite ST. clear ST.
    assert (D : supported z \/ ~ supported z) by (unfold supported; lia). destruct D as [D|D].
    + pose proof (proj1 (supported_iff z) D) as (s & Hs).
      destruct (proj1 (from_num_spec z) s Hs) as (sp & E & _ & EZ). rewrite E.
      destruct (IH (add_sites h [mkSite p sp])) as [(ns & E1 & F & S)|(ns & E1 & S)]; rewrite E1.
      * left. exists (mkSite p sp :: ns). split.
        { unfold add_sites; cbn. rewrite <- app_assoc, app_length; cbn. rewrite Nat.add_1_r. reflexivity. }
        split; constructor; auto.
      * right. exists (mkSite p sp :: ns). split.
        { unfold add_sites; cbn. rewrite <- app_assoc. reflexivity. }
        intros X. inversion X; subst. contradiction.
    + right. exists []. rewrite (proj2 (from_num_spec z) D). split.
      { unfold add_sites. rewrite app_nil_r. destruct h. reflexivity. }
      intros X. inversion X; subst. contradiction.
Qed.

Lemma seq_map_site_at h ns nl nc l : length ns = length l ->
  map (site_at (mkHeap (h_site h ++ ns) nl nc)) (seq (length (h_site h)) (length (l : list (vec Qc * Z)))) = ns.
Proof.
  intros L. rewrite <- L. unfold site_at; cbn. clear.
  apply list_ext_nth with (d := dummy_site).
  - rewrite map_length, seq_length. reflexivity.
  - intros i I. rewrite map_length, seq_length in I.
    rewrite nth_indep with (d' := nth 0 (h_site h ++ ns) dummy_site) by (rewrite map_length, seq_length; exact I).
    rewrite map_nth with (f := fun a => nth a (h_site h ++ ns) dummy_site).
    rewrite seq_nth by exact I. rewrite app_nth2 by lia. f_equal. lia.
Qed.

Lemma wf_new_cell h ns nl lat : wf_heap h ->
  (forall a, In a nl -> (length (h_site h) <= a < length (h_site h) + length ns)%nat) ->
  framed None [] h (mkHeap (h_site h ++ ns) (h_list h ++ [nl]) (h_cell h ++ [mkMC lat (length (h_list h))])).
Proof.
  intros W B. apply alloc_frame; auto.
  - intros m [<-|[]]. cbn. auto.
  - intros l a [<-|[]]. apply B.
Qed.
Lemma new_cell_refs h ns nl lat :
  let h' := mkHeap (h_site h ++ ns) (h_list h ++ [nl]) (h_cell h ++ [mkMC lat (length (h_list h))]) in
  is_cell h' (length (h_cell h)) /\ refs h' (length (h_cell h)) = nl /\ mc_lattice (cell_at h' (length (h_cell h))) = lat.
Proof.
  cbv zeta. unfold is_cell, refs, list_at, cell_at; cbn. rewrite app_length; cbn.
  rewrite (@app_nth2 _ (h_cell h)), Nat.sub_diag by lia. cbn. rewrite app_nth2, Nat.sub_diag by lia. repeat split; lia.
Qed.
Lemma wf_add_sites h ns : wf_heap h -> framed None [] h (add_sites h ns).
Proof.
  intros W. pose proof (@alloc_frame h ns [] [] W) as F. unfold add_sites. rewrite !app_nil_r in F. apply F.
  - intros m [].
  - cbn. lia.
  - intros l a [].
Qed.

Lemma ModifiedCell_new_spec lat pos nums h : wf_heap h ->
  (Forall (fun pz => supported (snd pz)) (combine pos nums) /\
   exists h', ModifiedCell_new lat pos nums h = (h', Ok (length (h_cell h))) /\ framed None [] h h' /\
     is_cell h' (length (h_cell h)) /\ mc_lattice (cell_at h' (length (h_cell h))) = lat /\
     NoDup (refs h' (length (h_cell h))) /\ (forall a, In a (refs h' (length (h_cell h))) -> ~ is_site h a) /\
     Forall2 (fun pz a => s_pos (site_at h' a) = fst pz /\ from_num (snd pz) = Ok (s_ele (site_at h' a)))
       (combine pos nums) (refs h' (length (h_cell h)))) \/
  (~ Forall (fun pz => supported (snd pz)) (combine pos nums) /\
   exists h', ModifiedCell_new lat pos nums h = (h', Raise IndexError) /\ framed None [] h h' /\ h_cell h' = h_cell h).
Proof.
  intros W. destruct (@new_sites_spec (combine pos nums) h) as [(ns & E & F & S)|(ns & E & S)].
  - left. split; [exact S|]. unfold ModifiedCell_new, cbind at 1. rewrite E.
    set (nl := seq _ _). exists (mkHeap (h_site h ++ ns) (h_list h ++ [nl]) (h_cell h ++ [mkMC lat (length (h_list h))])).
    split; [reflexivity|].
    pose proof (Forall2_len F) as L.
    destruct (new_cell_refs h ns nl lat) as (C & R & LL).
    split; [|split; [|split; [|split; [|split]]]].
    + apply (@wf_new_cell h ns nl lat W). intros a I. unfold nl in I. apply in_seq in I. lia.
    + exact C.
    + exact LL.
    + rewrite R. apply seq_NoDup.
    + rewrite R. intros a I. unfold nl in I. apply in_seq in I. unfold is_site. lia.
    + rewrite R. set (h' := mkHeap _ _ _).
      assert (M : map (site_at h') nl = ns) by (apply (@seq_map_site_at h ns _ _ (combine pos nums)); congruence).
      rewrite <- M in F. clear -F. revert F. generalize (combine pos nums). induction nl as [|a nl IH]; intros l F; inversion F; subst; constructor; auto.
  - right. split; [exact S|]. unfold ModifiedCell_new, cbind at 1. rewrite E. eexists. split; [reflexivity|].
    split; [apply wf_add_sites; exact W|reflexivity].
Qed.

(** ** deepcopy *)
Definition memo_ok (h0 h : heap) (memo : list (nat * nat)) : Prop :=
  NoDup (map snd memo) /\
  forall a b, In (a, b) memo -> (length (h_site h0) <= b < length (h_site h))%nat /\ site_at h b = site_at h a /\ is_site h0 a.

Lemma memo_find_In m a b : memo_find m a = Some b -> In (a, b) m.
Proof.
  induction m as [|[x y] m IH]; cbn; [discriminate|]. destruct (Nat.eqb_spec x a) as [->|N].
  - intros [= ->]. left. reflexivity.
  - intros H. right. auto.
Qed.

Definition extends (m m' : list (nat * nat)) : Prop := forall a b, memo_find m a = Some b -> memo_find m' a = Some b.

Lemma deepcopy_spec h0 l : forall memo h, (length (h_site h0) <= length (h_site h))%nat ->
  (forall a, is_site h0 a -> site_at h a = site_at h0 a) -> memo_ok h0 h memo -> Forall (is_site h0) l ->
  exists ns ys memo', deepcopy_sites memo l h = (add_sites h ns, Ok ys) /\
    memo_ok h0 (add_sites h ns) memo' /\ extends memo memo' /\ Forall2 (fun a b => memo_find memo' a = Some b) l ys.
Proof.
  induction l as [|a l IH]; intros memo h Lh V MO F.
  - exists [], [], memo. cbn. assert (Eh : add_sites h [] = h) by (unfold add_sites; rewrite app_nil_r; destruct h; reflexivity).
    rewrite Eh. split; [reflexivity|]. split; [exact MO|]. split; [intros x y Hxy; exact Hxy|constructor].
  - inversion F as [|? ? A F']; subst. cbn [deepcopy_sites]. destruct (memo_find memo a) as [b|] eqn:M.
    + destruct (IH memo h Lh V MO F') as (ns & ys & memo' & E & MO' & X & R).
      exists ns, (b :: ys), memo'. unfold cbind. rewrite E. split; [reflexivity|]. split; [exact MO'|]. split; [exact X|].
      constructor; [apply X; exact M|exact R].
    + unfold cbind at 1. unfold new_site at 1. cbn [fst snd].
      set (h1 := mkHeap _ _ _). 
      assert (h1E : h1 = add_sites h [site_at h a]) by reflexivity.
      assert (V1 : forall x, is_site h x -> site_at h1 x = site_at h x).
      { intros x Xs. unfold site_at, h1; cbn. apply app_nth1. exact Xs. }
      assert (UP : forall x, is_site h0 x -> is_site h x) by (unfold is_site; intros; lia).
      destruct (IH ((a, length (h_site h)) :: memo) h1) as (ns & ys & memo' & E & MO' & X & R).
      * unfold h1; cbn. rewrite app_length. lia.
      * intros x Xs. rewrite V1 by auto. auto.
      * split.
        -- cbn. constructor; [|apply MO]. intros I. apply in_map_iff in I. destruct I as ([x y] & EQ & I). cbn in EQ. subst y.
           apply (proj2 MO) in I. lia.
        -- intros x y [[= <- <-]|I].
           ++ split; [unfold h1; cbn; rewrite app_length; cbn; lia|]. split; [|exact A].
              rewrite (V1 a) by auto. unfold site_at at 1, h1; cbn. rewrite app_nth2, Nat.sub_diag by lia. reflexivity.
           ++ destruct (proj2 MO x y I) as (B & E & S). split; [unfold h1; cbn; rewrite app_length; lia|]. split; [|exact S].
              rewrite !V1; auto. apply B.
      * exact F'.
      * exists (site_at h a :: ns), (length (h_site h) :: ys), memo'. unfold cbind. rewrite E. cbn [ret].
        assert (EQ : add_sites h1 ns = add_sites h (site_at h a :: ns)).
        { unfold add_sites, h1; cbn. rewrite <- app_assoc. reflexivity. }
        rewrite <- EQ. split; [reflexivity|]. split; [exact MO'|]. split.
        -- intros x y H. apply X. cbn. destruct (Nat.eqb_spec a x) as [->|N]; [congruence|exact H].
        -- constructor; [|exact R]. apply X. cbn. rewrite Nat.eqb_refl. reflexivity.
Qed.

Lemma memo_inj m a1 a2 b : NoDup (map snd m) -> memo_find m a1 = Some b -> memo_find m a2 = Some b -> a1 = a2.
Proof.
  intros N H1 H2. apply memo_find_In in H1, H2.
  pose proof (@NoDup_map_inj _ _ snd m (a1, b) (a2, b) N H1 H2 eq_refl) as E. congruence.
Qed.

Lemma mc_copy_spec c h : wf_heap h -> is_cell h c ->
  exists h', let d := length (h_cell h) in
    mc_copy c h = (h', Ok d) /\ framed None [] h h' /\ is_cell h' d /\
    mc_lattice (cell_at h' d) = mc_lattice (cell_at h c) /\
    map (site_at h') (refs h' d) = map (site_at h) (refs h c) /\
    (forall a, In a (refs h' d) -> ~ is_site h a) /\
    (forall i j, nth_error (refs h' d) i = nth_error (refs h' d) j <-> nth_error (refs h c) i = nth_error (refs h c) j).
Proof.
  intros W C. assert (F : Forall (is_site h) (refs h c)).
  { apply Forall_forall. intros a I. eapply wf_refs_site; eauto. }
  destruct (@deepcopy_spec h (refs h c) [] h) as (ns & ys & memo & E & (ND & MO) & _ & R); auto.
  { split; [constructor|intros a b []]. }
  unfold mc_copy, cbind at 1. rewrite E.
  exists (mkHeap (h_site h ++ ns) (h_list h ++ [ys]) (h_cell h ++ [mkMC (mc_lattice (cell_at h c)) (length (h_list h))])).
  split; [reflexivity|].
  destruct (new_cell_refs h ns ys (mc_lattice (cell_at h c))) as (C' & RF & LL).
  assert (B : forall b, In b ys -> exists a, In (a, b) memo).
  { intros b I. clear -R I. induction R; [destruct I|]. destruct I as [<-|I]; auto. eexists. apply memo_find_In; eauto. }
  split; [|split; [exact C'|split; [exact LL|split; [|split]]]].
  - apply (@wf_new_cell h ns ys (mc_lattice (cell_at h c)) W). intros b I. destruct (B b I) as (a & M). apply MO in M. cbn in M. rewrite app_length in M. lia.
  - rewrite RF. set (h' := mkHeap _ _ _).
    assert (S' : forall x, site_at h' x = site_at (add_sites h ns) x) by reflexivity.
    clearbody h'. clear -R MO S'. induction R as [|a b l ys M R IH]; cbn; [reflexivity|]. f_equal; [|exact IH].
    rewrite S'. apply memo_find_In in M. destruct (MO a b M) as (_ & E & A). rewrite E.
    unfold site_at; cbn. apply app_nth1. exact A.
  - rewrite RF. intros b I. destruct (B b I) as (a & M). apply MO in M. unfold is_site. lia.
  - rewrite RF. intros i j.
    assert (K : forall k, match nth_error (refs h c) k, nth_error ys k with
                      | Some a, Some b => memo_find memo a = Some b | None, None => True | _, _ => False end).
    { clear -R. induction R as [|a b l ys M R IH]; intros [|k]; cbn; try exact I; try exact M. apply IH. }
    pose proof (K i) as Ki. pose proof (K j) as Kj.
    destruct (nth_error (refs h c) i), (nth_error ys i); try contradiction;
    destruct (nth_error (refs h c) j), (nth_error ys j); try contradiction; try (split; discriminate); try tauto.
    split; intros [=]; subst.
    + f_equal. eapply memo_inj; eauto.
    + congruence.
Qed.

(** ** statements *)
Lemma exec_frame s h : wf_heap h -> stmt_ok h s -> framed (stmt_target s) (stmt_args s) h (exec s h).
Proof.
  intros W (T & A & CP). destruct s as [p e|lat pos nums|c|c o|c i v|c dist rnd|c i p|c i e|cs r ele c]; cbn [stmt_target stmt_args exec] in *.
  - unfold cbind, lift. destruct (Site_new p e) as [s|x]; cbn.
    + apply wf_add_sites. exact W.
    + apply framed_refl. exact W.
  - destruct (ModifiedCell_new_spec lat pos nums W) as [(_ & h' & E & F & _)|(_ & h' & E & F & _)]; rewrite E; exact F.
  - destruct (mc_copy_spec W (CP c eq_refl)) as (h' & E & F & _). rewrite E. exact F.
  - apply framed_list; auto.
  - apply translate_frame; auto.
  - unfold perturb. destruct (perturb_loop c dist (mc_len h c) 0 rnd h) as [[h' x]|] eqn:E; [|apply framed_refl; exact W].
    eapply perturb_frame; eauto.
  - unfold set_position, cbind. destruct (mc_getitem c i h) as [h1 [a|x]] eqn:E.
    + assert (h1 = h) by (unfold mc_getitem in E; congruence). subst h1. apply put_site_frame; auto.
      apply (getitem_In (i := i)); rewrite E; reflexivity.
    + assert (h1 = h) by (unfold mc_getitem in E; congruence). subst h1. apply framed_refl. exact W.
  - unfold set_element, cbind. destruct (mc_getitem c i h) as [h1 [a|x]] eqn:E.
    + assert (h1 = h) by (unfold mc_getitem in E; congruence). subst h1. apply put_site_frame; auto.
      apply (getitem_In (i := i)); rewrite E; reflexivity.
    + assert (h1 = h) by (unfold mc_getitem in E; congruence). subst h1. apply framed_refl. exact W.
  - unfold atom_remove_clarify, cbind at 1.
    pose proof (@clarify_frame c r ele cs h W (T c eq_refl)) as F.
    destruct (citer _ cs h) as [h' [u|x]]; exact F.
Qed.

Lemma prog_wf ss : forall h, wf_heap h -> prog_ok ss h -> wf_heap (exec_all ss h).
Proof.
  induction ss as [|s ss IH]; intros h W P; [exact W|]. destruct P as [P1 P2].
  change (exec_all (s :: ss) h) with (exec_all ss (exec s h)). apply IH; [|exact P2].
  apply (exec_frame W P1).
Qed.

(** A cell that no statement targets, and whose sites are reached in no other way, stays. *)
Lemma history_frame ss c rc (ok : nat -> Prop) : forall h,
  wf_heap h -> prog_ok ss h -> is_cell h c -> refs h c = rc ->
  (forall d, is_cell h d -> ok d -> forall a, In a (refs h d) -> ~ In a rc) ->
  Forall (fun s => (forall d, stmt_target s = Some d -> d <> c /\ ok d) /\ (forall a, In a (stmt_args s) -> ~ In a rc)) ss ->
  (forall lat vs, contains h c lat vs -> contains (exec_all ss h) c lat vs) /\ holds (exec_all ss h) c rc.
Proof.
  induction ss as [|s ss IH]; intros h W P C R D F.
  - split; [auto|]. apply holds_iff; auto.
  - destruct P as [P1 P2]. inversion F as [|? ? [F1 F2] F']; subst.
    change (exec_all (s :: ss) h) with (exec_all ss (exec s h)).
    destruct (exec_frame W P1) as (W' & S' & C' & L' & R' & A' & V' & N').
    assert (Cc : is_cell (exec s h) c) by (unfold is_cell in *; lia).
    assert (Rc : refs (exec s h) c = refs h c).
    { apply R'; [exact C|]. intros E. apply (F1 c E). reflexivity. }
    assert (Vc : map (site_at (exec s h)) (refs h c) = map (site_at h) (refs h c)).
    { apply map_ext_in. intros a I. apply V'.
      - eapply wf_refs_site; eauto.
      - intros t E J. destruct (F1 t E) as [_ O]. apply (D t (proj1 P1 t E) O a J I). }
    destruct (IH (exec s h) W' P2 Cc Rc) as [G1 G2].
    + intros d Dd O a I J.
      assert (Si : is_site h a) by (eapply wf_refs_site; [exact W|exact C|exact J]).
      destruct (Nat.lt_ge_cases d (length (h_cell h))) as [Lt|Ge].
      * destruct (stmt_target s) as [t|] eqn:T.
        -- destruct (Nat.eq_dec t d) as [->|NE].
           ++ destruct (A' d a eq_refl I) as [X|X]; [apply (D d Lt O a X J)|apply (F2 a X J)].
           ++ rewrite R' in I by (exact Lt || congruence). apply (D d Lt O a I J).
        -- rewrite R' in I by (exact Lt || congruence). apply (D d Lt O a I J).
      * apply (N' d a); auto. unfold is_cell. lia.
    + exact F'.
    + split; [|exact G2]. intros lat vs K. apply G1. apply contains_iff in K; [|exact W]. apply contains_iff; [exact W'|].
      destruct K as (_ & -> & ->). rewrite L', Rc, Vc by exact C. auto.
Qed.
