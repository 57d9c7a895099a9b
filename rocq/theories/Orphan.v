(** Trees the loader leaves with a single-child node: removing the greatest keys
    one after the other panics in the end, or is undefined in a release build. *)
From stdpp Require Import list sorting.
From Verif Require Import Base Slots BinSearch LeafNode InnerNode Store Tree Remove Iterators Observe
  BulkLoad History SlotLemmas NodeLemmas Spec AugSpec Order Logical Descent InsertProof InvLemmas InsertTop
  RemoveLeaf RemoveInner RemoveProof RemoveTop Lookup IterProof IntoProof BulkProof BulkTop HistProof HistTop.

Section Ascent.
Context {K V A : Type} {KO : KeyOps K} {PF : Profile} {OM : OrdMode} {OI : OrdIf K} {AO : AugOps K V A}.
Notation tr := (tr K V).
Notation tree := (tree K V A).
Notation store := (store K V A).
Notation mark := (K * option V)%type.
Notation seg := (nat * list (K * V))%type.
Context (SYNC : Prop) (Hnd0 : aug_needs_drop (K:=K) (V:=V) (A:=A) = false).

(** A lowest single-child node on the way down the last children: below it the
    shape is as it should be.  [j]: how high its child stands above the leaves. *)
Inductive low_orph (j : nat) : nat -> tr -> Prop :=
| lo_here id c : shape 1 1 true j c -> low_orph j (S j) (TNode id [] [c])
| lo_up h id ks cl c : low_orph j h c -> low_orph j (S h) (TNode id ks (cl ++ [c])).

Lemma shape_weak ri ri' b h (t : tr) : ri' <= ri -> shape 1 ri b h t -> shape 1 ri' b h t.
Proof.
  intros Hr. revert b t. induction h as [|h IH]; intros b [id kvs|id ks ch]; simpl; try done.
  intros (H1 & H2 & H3). split_and!; try done; [destruct b; lia|lia|].
  eapply chs_impl; [|exact H3]. intros b' c _. apply IH.
Qed.
Lemma chs_false (P : bool -> tr -> Prop) ch : chs P false ch <-> ch <> [] /\ Forall (P false) ch.
Proof.
  induction ch as [|c ch IH]; [by split; [|intros []]|]. rewrite Forall_cons. destruct ch as [|c' ch].
  - simpl. split; [|tauto]. intros. split; [done|]. split; [done|constructor].
  - change (chs P false (c :: c' :: ch)) with (P false c /\ chs P false (c' :: ch)). rewrite IH. naive_solver.
Qed.
Lemma shape_strict ri ri' h (t : tr) : shape 1 ri false h t -> shape 1 ri' false h t.
Proof.
  revert t. induction h as [|h IH]; intros [id kvs|id ks ch]; simpl; try done.
  intros (H1 & H2 & H3). split_and!; try done; try lia. apply chs_false in H3 as [H3 H4]. apply chs_false. split; [done|].
  eapply Forall_impl; [exact H4|]. intros x. apply IH.
Qed.
Lemma chs_snoc (P : bool -> tr -> Prop) b cl c : chs P b (cl ++ [c]) <-> Forall (P false) cl /\ P b c.
Proof. rewrite chs_app. simpl. split; [by intros (? & ? & _)|intros [? ?]; by split_and!]. Qed.

Lemma low_orph_or h (t : tr) : shape 1 0 true h t -> shape 1 1 true h t \/ exists j, low_orph j h t.
Proof.
  revert t. induction h as [|h IH]; intros [id kvs|id ks ch]; simpl; try done; [by left|].
  intros (H1 & H2 & H3). destruct (exists_last (l:=ch)) as (cl & c & ->); [by intros ->|].
  apply chs_snoc in H3 as [H3 H4]. destruct (IH c H4) as [Hc|[j Hc]]; [|right; exists j; by constructor].
  rewrite app_length in H2. simpl in H2.
  destruct ks as [|k ks]; [right|left].
  - destruct cl; [|simpl in H2; lia]. exists h. by constructor.
  - split_and!; simpl in *; try lia; [rewrite app_length; simpl; lia|]. apply chs_snoc. split; [|done].
    eapply Forall_impl; [exact H3|]. intros x. apply shape_strict.
Qed.
Lemma orph_not h (t : tr) : orph t -> shape 1 1 true h t -> False.
Proof.
  intros H. revert h. induction H as [id c|id ks cl c Hc IH]; intros [|h]; simpl; try done; [lia|].
  intros (_ & _ & H). apply chs_snoc in H as [_ H]. by apply (IH h).
Qed.
Lemma orph_low h m (t : tr) : orph t -> nshape 1 0 m true h t -> exists j, low_orph j h t.
Proof.
  intros H Hs. destruct H as [id c|id ks cl c Hc]; (destruct h as [|h]; [done|]); destruct Hs as (_ & _ & Hs).
  - destruct (low_orph_or h c Hs) as [?|[j ?]]; [exists h; by constructor|]. exists j. by apply (lo_up j h id [] []).
  - apply chs_snoc in Hs as [_ Hs]. destruct (low_orph_or h c Hs) as [Ho|[j ?]]; [|exists j; by constructor].
    by apply orph_not in Ho.
Qed.
Lemma bottom_shape b h (t : tr) : bottom b t -> shape 1 1 true h t -> b = false.
Proof.
  intros H. revert h. induction H as [id ks cl i kvs Hb|id ks cl c Hc IH]; intros [|h]; simpl; try done.
  - intros (H1 & H2 & _). rewrite app_length in H2. simpl in H2. destruct cl; [simpl in H2; lia|]. by rewrite bool_decide_false in Hb.
  - intros (_ & _ & H). apply chs_snoc in H as [_ H]. by apply (IH h).
Qed.
Lemma bottom_inv b id ks cl (c : tr) : bottom b (TNode id ks (cl ++ [c])) ->
  bottom b c \/ exists i kvs, c = TLeaf i kvs /\ b = bool_decide (cl = []).
Proof.
  intros H. inversion H as [id' ks' cl' i kvs Hb E|id' ks' cl' c' Hc E]; subst;
    match goal with E : _ ++ _ = _ ++ _ |- _ => apply app_inj_tail in E as [-> <-] end; [|by left].
  right. by exists i, kvs.
Qed.
Lemma low_bottom b j h (t : tr) : low_orph j h t -> bottom b t -> b = bool_decide (j = 0).
Proof.
  induction 1 as [id c Hc|h id ks cl c Hl IH]; intros Hb.
  - apply (bottom_inv b id [] [] c) in Hb as [Hb|(i & kvs & -> & ->)].
    + destruct j; [by destruct c; [inversion Hb|]|]. rewrite bool_decide_false by done. by eapply bottom_shape.
    + by destruct j.
  - apply bottom_inv in Hb as [Hb|(i & kvs & -> & _)]; [by apply IH|inversion Hl].
Qed.

(** Nodes hold entries. *)
Lemma shape_flat ri b h (t : tr) : shape 1 ri b h t -> flat t <> [].
Proof.
  revert b t. induction h as [|h IH]; intros b [id kvs|id ks ch]; try done.
  - simpl. rewrite flat_leaf. intros H ->. simpl in H. destruct b; lia.
  - intros (_ & _ & H). rewrite flat_node. destruct ch as [|c ch]; [done|].
    assert (exists b', shape 1 ri b' h c) as (b' & Hc) by (destruct ch; [by exists b|exists false; apply H]).
    apply IH in Hc. simpl. by intros [? _]%app_eq_nil.
Qed.

Lemma reach_last nid' ks cl (c : tr) id kvs mA mB s1 s2 st h b :
  chs (fun b' => shape 1 0 b' h) b (cl ++ [c]) ->
  reach (TNode nid' ks (cl ++ [c])) id kvs mA mB s1 s2 st -> elems mB = [] ->
  exists mA' s1' st', reach c id kvs mA' mB s1' s2 st' /\ elems mA = concat (map flat cl) ++ elems mA' /\
    s1 = concat (map leaf_seq cl) ++ s1' /\ st = st' ++ [(nid', length cl, nid c)] /\ length ks = length cl.
Proof.
  intros Hc R Hb. remember (TNode nid' ks (cl ++ [c])) as t0 eqn:Et.
  destruct R as [|n' kl kr cl0 c0 cr0 id0 kvs0 mA0 mB0 s10 s20 st0 L1 L2 R0]; [done|]. injection Et as -> <- E2.
  rewrite elems_app, elems_zr in Hb by done. apply app_eq_nil in Hb as [Hb1 Hb2].
  assert (cr0 = []) as ->.
  { destruct cr0 as [|c1 cr0]; [done|]. exfalso. simpl in Hb2. apply app_eq_nil in Hb2 as [Hb2 _]. rewrite <- E2 in Hc.
    apply chs_app in Hc as (_ & _ & Hc). specialize (Hc ltac:(done)).
    assert (exists b', shape 1 0 b' h c1) as (b' & Hs) by (destruct cr0; [by exists b|exists false; apply Hc]).
    by apply shape_flat in Hs. }
  apply app_inj_tail in E2 as [-> ->]. destruct kr; [|done]. exists mA0, s10, st0.
  change (zr ([] : list K) ([] : list tr)) with ([] : list mark). cbn [map concat]. rewrite !app_nil_r, elems_app, elems_zl by done. done.
Qed.

Lemma done_up h m nid' ks cl (c c' : tr) (s s' s0 : store) stat stat' pre post off kv nk fl st r0 :
  irep SYNC (inners s) (S h) (TNode nid' ks (cl ++ [c])) -> nshape 1 0 m true (S h) (TNode nid' ks (cl ++ [c])) ->
  NoDup (inner_ids (TNode nid' ks (cl ++ [c]))) -> length ks = length cl ->
  (forall st0, remove_ascend (st ++ st0) s0 stat r0 = remove_ascend st0 s' stat' (DrDone kv)) ->
  rem_post 1 0 SYNC (smin 1 0 true h) true h c off kv nk fl (pre ++ concat (map leaf_seq cl)) post s s' (DrDone kv) c' ->
  exists s'', (forall st0, remove_ascend ((st ++ [(nid', length cl, nid c)]) ++ st0) s0 stat r0 = remove_ascend st0 s'' stat' (DrDone kv)) /\
    rem_post 1 0 SYNC m true (S h) (TNode nid' ks (cl ++ [c])) off kv nk (concat (map flat cl) ++ fl) pre post s s'' (DrDone kv)
      (TNode nid' ks (cl ++ [c'])).
Proof.
  intros Hir Hsh Hnd Hkl Hasc (Hln & Hfr & En & Hirc & Hlrc & (dead & Hdead & Hdn) & _ & Hshc & Hflc & Hsoc).
  destruct (nodup_node _ _ _ _ _ Hnd) as (N1 & N2 & N3 & N4 & N5 & N6).
  destruct Hir as [(aus & Ep & Hlaus & Haug) Hch]. pose proof Hsh as (Hks & Hlen & Hchs).
  apply Forall_app in Hch as [F1 _]. apply chs_snoc in Hchs as [C1 C2].
  assert (inners s' !! nid' = Some (Some (mk_inner ks (map nid (cl ++ [c])) aus))) as Ep' by (by rewrite Hfr).
  assert (map nid (cl ++ [c]) = map nid (cl ++ [c'])) as Enid by (rewrite !map_app; simpl; by rewrite En).
  assert (Forall (irep SYNC (inners s') h) cl) as F1' by (eapply Forall_irep_frame; [done|]; intros i Hi _; apply Hfr; by apply N5).
  assert (nid' < length (inners s')) as Hlt by (by eapply lookup_lt_Some).
  assert (ids (cl ++ [c]) ≡ₚ ids (cl ++ [c']) ++ dead) as Hids.
  { rewrite !ids_app, !ids_cons, Hdead. rewrite <- !app_assoc. by rewrite (Permutation_app_comm dead). }
  rewrite inner_ids_node in Hnd. apply NoDup_cons in Hnd as [Nn Nd].
  assert (forall i, i ∈ ids (cl ++ [c']) \/ i ∈ dead -> i <> nid') as Hne.
  { intros i Hi ->. apply Nn. rewrite Hids, elem_of_app. tauto. }
  destruct (new_aug_ok 1 0 SYNC s' h c' _ _ Hirc Hshc) as (a & Ea & Ha).
  { eapply lrep_lvok; [exact Hlrc|]. by eapply nshape_segs. }
  eexists. split.
  { intros st0. rewrite <- app_assoc, Hasc. cbn [remove_ascend app]. rewrite <- En, Ea, obind_Ok.
    unfold get_inner. rewrite Ep', obind_Ok. rewrite Enid.
    rewrite inner_set_augmentation_mk by (rewrite Hlaus, app_length; simpl; lia). rewrite obind_Ok. reflexivity. }
  split; [|split; [|split; [|split; [|split; [|split]]]]].
  - cbn [inners put_inner set_inners]. by rewrite insert_length.
  - intros i Hi. rewrite inner_ids_node in Hi. cbn [inners put_inner set_inners].
    rewrite list_lookup_insert_ne; [apply Hfr|].
    + intros Hj. apply Hi. right. rewrite ids_app, ids_cons, !elem_of_app. tauto.
    + intros ->. apply Hi. by left.
  - done.
  - cbn [inners put_inner set_inners]. apply irep_node; try done.
    + apply Forall_app. split; [done|]. by constructor.
    + intros Hi. by apply (Hne nid'); [left|].
    + rewrite insert_length, Hlaus, !app_length. done.
    + by eapply map_aug_insert.
  - cbn [leaves put_inner set_inners leaf_seq]. rewrite map_app, concat_app. simpl. rewrite app_nil_r, <- !app_assoc in *. done.
  - exists dead. rewrite !inner_ids_node. split; [simpl; by rewrite Hids|].
    intros i Hi. cbn [inners put_inner set_inners]. rewrite list_lookup_insert_ne; [by apply Hdn|].
    intros <-. by apply (Hne nid'); [right|].
  - split; [done|]. split; [|split].
    + split; [lia|]. split; [rewrite <- Hlen, !app_length; done|]. apply chs_snoc. split; [done|]. by apply shape_nshape.
    + rewrite flat_node, map_app, concat_app. simpl. by rewrite Hflc, app_nil_r.
    + intros X Y. replace ks with (ks ++ []) by apply app_nil_r. rewrite !trav_node by done.
      replace (X ++ (zl cl ks ++ trav c ++ zr [] []) ++ Y) with ((X ++ zl cl ks) ++ trav c ++ zr [] [] ++ Y)
        by (by rewrite <- !app_assoc).
      replace (X ++ (zl cl ks ++ trav c' ++ zr [] []) ++ Y) with ((X ++ zl cl ks) ++ trav c' ++ zr [] [] ++ Y)
        by (by rewrite <- !app_assoc). apply Hsoc.
Qed.

Lemma low_ascend j h t : low_orph j h t -> forall id kvs mA mB s1 s2 st m (s s0 : store) stat pre post off kv r0,
  reach t id kvs mA mB s1 s2 st -> elems mB = [] ->
  irep SYNC (inners s) h t -> nshape 1 0 m true h t -> NoDup (inner_ids t) ->
  kvs !! off = Some kv -> lrep (leaves s) (pre ++ leaf_seq t ++ post) ->
  leaf_start id kvs off kv (last_id None (pre ++ s1)) (hd_id (s2 ++ post) None) s s0 r0 ->
  (forall st0, remove_ascend (st ++ st0) s0 stat r0 = stuck j) \/
  exists s' stat' t', (forall st0, remove_ascend (st ++ st0) s0 stat r0 = remove_ascend st0 s' stat' (DrDone kv)) /\
    rem_post 1 0 SYNC m true h t off kv (length kvs) (elems mA ++ delete off kvs ++ elems mB) pre post s s' (DrDone kv) t' /\
    low_orph j h t'.
Proof.
  induction 1 as [nid' c Hc|h nid' ks cl c Hlow IH];
    intros id kvs mA mB s1 s2 st m s s0 stat pre post off kv r0 R Hb Hir Hsh Hnd Hoff Hlr Hstart.
  - destruct (reach_last nid' [] [] c id kvs mA mB s1 s2 st j true) as (mA' & s1' & st' & R' & EA & Es1 & Est & _); [|exact R|done|].
    { by destruct Hsh as (_ & _ & ?). }
    simpl in EA, Es1, Est. subst s1 st.
    assert (lrep (leaves s) (pre ++ leaf_seq c ++ post)) as Hlr' by (simpl in Hlr; by rewrite app_nil_r in Hlr).
    destruct (nodup_node _ _ [] [] c Hnd) as (N1 & N2 & N3 & N4 & N5 & N6).
    pose proof Hir as [(aus & Ep & Hlaus & Haug) Hch]. apply Forall_cons in Hch as [Hch _].
    pose proof Hc as Hcn. apply shape_nshape in Hcn.
    destruct (remove_ascend_ok 1 1 SYNC ltac:(lia) ltac:(lia) c id kvs mA' mB s1' s2 st' ltac:(lia) R' j (smin 1 1 true j) true s s0 stat pre post off kv r0)
      as (s' & stat' & r' & c' & Hasc & Hpost); try done.
    { destruct j; simpl; lia. } { destruct j; simpl; lia. } { by left. }
    assert (inners s' !! nid' = Some (Some (mk_inner [] [nid c] aus))) as Ep'.
    { destruct Hpost as (_ & Hfr & _). by rewrite Hfr. }
    assert (forall st0, remove_ascend ((st' ++ [(nid', 0, nid c)]) ++ st0) s0 stat r0 =
      remove_ascend ((nid', 0, nid c) :: st0) s' stat' r') as Hasc' by (intros st0; by rewrite <- app_assoc, Hasc).
    destruct r' as [kv'|kv'|di].
    + right. assert (kv' = kv) as -> by (by destruct Hpost as (_ & _ & _ & _ & _ & _ & ? & _)).
      assert (shape 1 1 true j c') as Hc'.
      { destruct Hpost as (_ & _ & _ & _ & _ & _ & _ & H & _). by apply shape_nshape. }
      destruct (done_up j m nid' [] [] c c' s s' s0 stat stat' pre post off kv (length kvs) (elems mA' ++ delete off kvs ++ elems mB) st' r0)
        as (s'' & X1 & X2); try done.
      { cbn [map concat]. rewrite app_nil_r. destruct Hpost as (P1 & P2 & P3 & P4 & P5 & P6 & P7 & P8 & P9 & P10). split_and!; try done.
        apply shape_nshape. by eapply shape_weak; [|exact Hc']; lia. }
      exists s'', stat', (TNode nid' [] [c']). split; [exact X1|]. rewrite EA. split; [exact X2|by constructor].
    + left. intros st0. rewrite Hasc'. cbn [remove_ascend]. unfold get_inner. rewrite Ep', obind_Ok.
      destruct Hpost as (_ & _ & En & Hci & _ & _ & _ & (id0 & ks0 & ch0 & -> & _ & _) & _). destruct j as [|j]; [by destruct Hci|].
      rewrite <- En. cbn [nid]. rewrite stuck_inner, stuck_bind. done.
    + left. intros st0. rewrite Hasc'. cbn [remove_ascend]. unfold get_inner. rewrite Ep', obind_Ok.
      destruct Hpost as (_ & _ & _ & _ & _ & _ & -> & _). reflexivity.
  - destruct (reach_last nid' ks cl c id kvs mA mB s1 s2 st h true) as (mA' & s1' & st' & R' & EA & -> & -> & Hkl); [|exact R|done|].
    { by destruct Hsh as (_ & _ & ?). }
    destruct (nodup_node _ _ _ _ _ Hnd) as (N1 & N2 & N3 & N4 & N5 & N6).
    pose proof Hir as [_ Hch]. apply Forall_app in Hch as [_ Hch]. apply Forall_cons in Hch as [Hch _].
    pose proof Hsh as (_ & _ & Hcs). apply chs_snoc in Hcs as [_ Hcs]. apply shape_nshape in Hcs.
    destruct (IH id kvs mA' mB s1' s2 st' (smin 1 0 true h) s s0 stat (pre ++ concat (map leaf_seq cl)) post off kv r0)
      as [Hp|(s' & stat' & c' & Hasc & Hpost & Hlow')]; try done.
    { simpl in Hlr. rewrite map_app, concat_app in Hlr. simpl in Hlr. rewrite app_nil_r, <- !app_assoc in *. done. }
    { rewrite <- app_assoc. done. }
    + left. intros st0. rewrite <- app_assoc. apply Hp.
    + right. destruct (done_up h m nid' ks cl c c' s s' s0 stat stat' pre post off kv (length kvs) (elems mA' ++ delete off kvs ++ elems mB) st' r0)
        as (s'' & X1 & X2); try done.
      exists s'', stat', (TNode nid' ks (cl ++ [c'])). split; [exact X1|]. rewrite EA, <- app_assoc. split; [exact X2|by constructor].
Qed.

(** ** One removal of the greatest entry *)
Notation InvAt := (InvAt (A:=A) 1 0 SYNC).

Lemma low_by_ref j T h t id kvs mA mB s1 s2 st off kv : InvAt T h t -> low_orph j h t ->
  reach t id kvs mA mB s1 s2 st -> kvs !! off = Some kv -> elems mB = [] ->
  remove_by_ref T st id off = stuck j \/
  exists T' t', remove_by_ref T st id off = Ok (kv, T') /\ InvAt T' h t' /\ low_orph j h t' /\
    flat t' = elems mA ++ delete off kvs ++ elems mB.
Proof.
  intros [Hroot Hir Hlr Hnd Hso Hsh Hln Hau Hgb] Hlow R Hoff Hb.
  pose proof (reach_seq _ _ _ _ _ _ _ _ R) as (Eseq & EA & EB).
  set (s := t_store T) in *.
  assert (leaves s !! id = Some (Some (mk_leaf kvs (last_id None s1) (hd_id s2 None)))) as El.
  { rewrite Eseq in Hlr. by apply lrep_lookup. }
  pose proof (lookup_lt_Some _ _ _ Hoff) as Hofflt.
  assert (length (delete off kvs) = length kvs - 1) as Hdel by (rewrite length_delete by eauto; done).
  assert (flat t = elems mA ++ kvs ++ elems mB) as Eflat.
  { rewrite <- elems_trav, (reach_trav _ _ _ _ _ _ _ _ R), !elems_app, elems_emark. done. }
  set (fl := elems mA ++ delete off kvs ++ elems mB).
  assert (length fl = length (flat t) - 1 /\ 0 < length (flat t)) as [Hfl Hpos].
  { unfold fl. rewrite Eflat, !app_length, Hdel. lia. }
  set (r0 := if decide (16 < length kvs) then DrDone kv else DrLeafUnderSize off).
  set (s0 := if decide (16 < length kvs) then put_leaf s id (mk_leaf (delete off kvs) (last_id None s1) (hd_id s2 None)) else s).
  pose proof (nshape_segs _ _ _ _ _ _ Hsh) as Hsz. rewrite Eseq in Hsz.
  apply Forall_app in Hsz as [_ Hsz2]. apply Forall_cons in Hsz2 as [Hk64 _]. simpl in Hk64.
  assert (exists n0 rr, leaf_try_delete_at (mk_leaf kvs (last_id None s1) (hd_id s2 None)) off = Ok (rr, n0) /\
    match rr with DelDone kv => DrDone kv | DelUnderSize idx => DrLeafUnderSize idx end = r0 /\
    put_leaf s id n0 = s0) as (n0 & rr & Etry & Err & Es0).
  { unfold leaf_try_delete_at, r0, s0. rewrite leaf_lend_mk.
    destruct (decide (16 < length kvs)) as [D|D].
    - rewrite bool_decide_true by done. rewrite (leaf_delete_at_mk _ _ _ _ kv) by done. rewrite obind_Ok.
      eexists _, _. split_and!; done.
    - rewrite bool_decide_false by done. eexists _, _. split_and!; [done|done|].
      unfold put_leaf. rewrite list_insert_id by done. by destruct s. }
  assert (lrep (leaves s) ([] ++ leaf_seq t ++ [])) as Hlr' by (by rewrite app_nil_r).
  destruct (low_ascend j h t Hlow id kvs mA mB s1 s2 st (rmin h) s s0 (t_st T) [] [] off kv r0 R Hb Hir Hsh Hnd Hoff Hlr')
    as [Hp|(s' & stat' & t' & Hasc & Hpost & Hlow')].
  { unfold leaf_start, r0, s0. rewrite app_nil_r. destruct (decide _); done. }
  { left. specialize (Hp []). rewrite app_nil_r in Hp.
    unfold remove_by_ref. fold s. unfold get_leaf at 1. rewrite El, obind_Ok, Etry, obind_Ok, Es0, Err, Hp. apply stuck_bind. }
  right. destruct Hpost as (Hln' & Hfr & En & Hir' & Hlr2 & (dead & Hdead & Hdn) & _ & Hsh' & Hfl' & Hso').
  specialize (Hasc []). rewrite app_nil_r in Hasc. cbn [remove_ascend] in Hasc.
  simpl in Hlr2. rewrite app_nil_r in Hlr2.
  assert (NoDup (inner_ids t' ++ dead)) as Hnd2 by (by rewrite <- Hdead).
  assert (usize_pred (t_len T) = Ok (length fl)) as Epred.
  { rewrite Hln, Hfl. destruct (length (flat t)); [lia|]. simpl. do 2 f_equal. lia. }
  destruct (new_aug_ok 1 0 SYNC s' h t' _ _ Hir' Hsh') as (a & Ea & Ha).
  { apply lrep_lvok'; [done|]. by eapply nshape_segs. }
  eexists _, t'. split.
  { unfold remove_by_ref. fold s. unfold get_leaf at 1. rewrite El, obind_Ok, Etry, obind_Ok, Es0, Err, Hasc, !obind_Ok, Hroot, <- En, Ea, obind_Ok, Epred, obind_Ok. done. }
  split; [|done].
  fold fl in Hfl'. split; simpl; try done.
  - by apply NoDup_app in Hnd2 as [? _].
  - specialize (Hso' [] []). simpl in Hso'. rewrite !app_nil_r in Hso'. by apply Hso'.
  - by rewrite Hfl'.
  - intros HS. left. by apply Ha.
  - intros i n Hi. destruct (decide (i ∈ inner_ids t)) as [Hin|Hin].
    + rewrite Hdead, elem_of_app in Hin. destruct Hin as [?|Hin]; [by left|]. apply Hdn in Hin. congruence.
    + rewrite Hfr in Hi by done. destruct (Hgb _ _ Hi) as [?|?]; [done|by right].
Qed.
End Ascent.

Section OrphanTop.
Context {K V A : Type} {KO : KeyOps K} {PF : Profile} {OL : OrdLaws K} {AO : AugOps K V A}.
Notation tr := (tr K V).
Notation tree := (tree K V A).
Context (Hnd0 : aug_needs_drop (K:=K) (V:=V) (A:=A) = false).
Notation InvAt := (InvAt (A:=A) 1 0 False).

Lemma low_remove j (T : tree) h t k v l : InvAt T h t -> low_orph j h t -> flat t = l ++ [(k, v)] -> (N.of_nat (t_len T) < 2 ^ 64)%N ->
  remove T (probe_key k) = stuck j \/
  exists T' t', remove T (probe_key k) = Ok (Some v, T') /\ InvAt T' h t' /\ low_orph j h t' /\ flat t' = l.
Proof.
  intros HI Hlow Hl Hlen. set (p := probe_key k). assert (probe_ok p) as Hp by apply probe_key_legal.
  assert (p k = Eq) as Hk by apply ord_refl.
  destruct (home_exists 1 0 False T h t p HI (fun _ => Hp)) as (id & kvs & mA & mB & s1 & s2 & st & Hm).
  pose proof (fuel_inv 1 0 False T h t HI) as Hfuel.
  assert (h <= MAX_DEPTH) as Hh.
  { pose proof (inv_len _ _ _ _ _ _ HI) as E. rewrite E in Hlen. eapply height_bound; [apply HI|done]. }
  destruct Hm as [R Hst FA FB (D1 & D2 & D3) Ef Esq EA EB El Hsz Hsk].
  destruct (leaf_locate_any p kvs (last_id None s1) (hd_id s2 None) (fun _ => Hp) Hsz Hsk) as (r & Er & Hr).
  unfold remove, remove_impl, key_to_ref. rewrite (inv_root _ _ _ _ _ _ HI), D2 by (done || simpl; lia).
  assert (forall f st0, key_to_ref_loop f (t_store T) (NLeaf id) p st0 =
    match r with ROk idx => Ok (Some (st0, id, idx)) | RErr _ => Ok None end) as Hkr.
  { intros f st0. destruct f; simpl; unfold get_leaf; rewrite El, obind_Ok, Er, obind_Ok; done. }
  rewrite Hkr, app_nil_r. specialize (FA ord_true). specialize (FB ord_true).
  pose proof (mleft_elems _ _ FA) as FA'. pose proof (mright_elems _ _ FB) as FB'.
  assert (elems mB = []) as Hb.
  { destruct (elems mB) as [|x m] eqn:Em using rev_ind; [done|]. exfalso. rewrite Ef, app_assoc, app_assoc in Hl.
    apply app_inj_tail in Hl as [_ ->]. apply Forall_app in FB' as [_ FB']. apply Forall_cons in FB' as [FB' _].
    simpl in FB'. congruence. }
  destruct r as [i|i].
  - destruct Hr as (a & k' & v' & b & -> & -> & Hk' & Hab). rewrite obind_Ok. destruct (Hab ord_true) as [Ha Hb'].
    assert (b = [] /\ (k', v') = (k, v) /\ elems mA ++ a = l) as (-> & Ekv & El').
    { rewrite Ef, Hb, app_nil_r in Hl. destruct b as [|x b _] using rev_ind.
      - rewrite app_assoc in Hl. apply app_inj_tail in Hl as [? ?]. done.
      - exfalso. rewrite app_comm_cons, !app_assoc in Hl. apply app_inj_tail in Hl as [_ ->].
        apply Forall_app in Hb' as [_ Hb']. apply Forall_cons in Hb' as [Hb' _]. simpl in Hb'. congruence. }
    injection Ekv as -> ->.
    destruct (low_by_ref False Hnd0 j T h t id _ mA mB s1 s2 st (length a) (k, v) HI Hlow R) as [E|(T' & t' & E & HI' & Hlow' & Ef')];
      [by apply lookup_middle'|done| |]; rewrite E; [left; by rewrite !stuck_bind|right]. rewrite !obind_Ok.
    exists T', t'. split_and!; try done. rewrite Ef', Hb, app_nil_r, delete_middle' by done. by rewrite app_nil_r.
  - exfalso. destruct Hr as (a & b & -> & -> & Hab). destruct (Hab ord_true) as [Ha Hb'].
    assert ((k, v) ∈ flat t) as Hin by (rewrite Hl; apply elem_of_app; right; by left).
    rewrite Ef, Hb, app_nil_r, !elem_of_app in Hin. rewrite !Forall_forall in *.
    destruct Hin as [Hin|[Hin|Hin]]; [specialize (FA' _ Hin)|specialize (Ha _ Hin)|specialize (Hb' _ Hin)]; simpl in *; congruence.
Qed.

Lemma low_run j l : forall (T : tree) h t, InvAt T h t -> low_orph j h t -> flat t = l -> (N.of_nat (length l) < 2 ^ 64)%N ->
  exists n, run T (map (fun x => ORemove (probe_key x.1)) (take n (rev l))) = stuck j.
Proof.
  induction l as [|[k v] l IH] using rev_ind; intros T h t HI Hlow Hf Hlen.
  { exfalso. destruct Hlow as [id c Hc|h id ks cl c _].
    - rewrite flat_node in Hf. simpl in Hf. rewrite app_nil_r in Hf. by apply shape_flat in Hc.
    - destruct (inv_shape _ _ _ _ _ _ HI) as (_ & _ & Hs). apply chs_snoc in Hs as [_ Hs]. apply shape_flat in Hs.
      rewrite flat_node, map_app, concat_app in Hf. simpl in Hf. rewrite app_nil_r in Hf. by apply app_eq_nil in Hf as [_ Hf]. }
  rewrite rev_unit. destruct (low_remove j T h t k v l HI Hlow Hf) as [E|(T' & t' & E & HI' & Hlow' & Hf')].
  { by rewrite (inv_len _ _ _ _ _ _ HI), Hf. }
  - exists 1. cbn [take map run step fst]. by rewrite E, !stuck_bind.
  - destruct (IH T' h t' HI' Hlow' Hf') as (n & En); [rewrite app_length in Hlen; lia|].
    exists (S n). cbn [take map run step fst]. by rewrite E, !obind_Ok, En, stuck_bind.
Qed.

Lemma begin_orph b : start_ok b -> ~ orphan_free (length (spec_begin b)) ->
  exists (T : tree) h t, begin b = Ok T /\ InvAt T h t /\ flat t = spec_begin b /\ orph t /\
    bottom (bool_decide (((length (spec_begin b) + 63) / 64) mod 65 = 1)) t.
Proof.
  assert (forall data, key_sorted data -> ~ orphan_free (length (spec_load data)) ->
    exists (T : tree) h t, bulk_load data = Ok T /\ InvAt T h t /\ flat t = spec_load data /\ orph t /\
      bottom (bool_decide (((length (spec_load data) + 63) / 64) mod 65 = 1)) t) as Hbulk.
  { intros data Hs Ho. destruct data as [|x data]; [destruct Ho; by left|].
    destruct (bulk_items_ok (A:=A) 0 False ltac:(lia) (spec_load (x :: data)))
      as (s & nodes & c & s' & root & T & h & t & E1 & E2 & E3 & HI & Hf & _ & Hor & _).
    { intros _. apply spec_load_elem. } { by apply spec_load_nonnil. } { done. }
    destruct Hor as [Hor Hbt]; [intros Hn; apply Ho; by right|]. exists T, h, t. split_and!; try done.
    unfold bulk_load. rewrite dedup_load by done. rewrite E1, obind_Ok, E2, obind_Ok. done. }
  intros Hb Ho. destruct b as [|data|data]; cbn [begin spec_begin start_ok] in *.
  - destruct Ho. by left.
  - by apply Hbulk.
  - unfold from_iter. rewrite <- load_sort in Ho |- *. apply Hbulk; [apply sort_by_key_sorted|done].
Qed.

Lemma orphan_stops b : start_ok b -> (N.of_nat (length (spec_begin b)) < 2 ^ 64)%N ->
  ~ orphan_free (length (spec_begin b)) ->
  exists n, exec (A:=A) b (map (fun x => ORemove (probe_key x.1)) (take n (rev (spec_begin b)))) =
    if decide (((length (spec_begin b) + 63) / 64) mod 65 = 1) then Panic else if dev then Panic else UB.
Proof.
  intros Hb Hlen Ho. destruct (begin_orph b Hb Ho) as (T & h & t & E & HI & Hf & Hor & Hbt).
  destruct (orph_low h (rmin h) t Hor) as [j Hj]; [apply HI|].
  destruct (low_run j (spec_begin b) T h t HI) as (n & En); try done.
  exists n. unfold exec. rewrite E, obind_Ok, En. pose proof (low_bottom _ _ _ _ Hj Hbt) as Ej.
  destruct (decide _) as [Hd|Hd]; [rewrite bool_decide_true in Ej by done|rewrite bool_decide_false in Ej by done];
    destruct j; done.
Qed.
End OrphanTop.
