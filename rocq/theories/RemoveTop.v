(** [remove] preserves the invariant and meets its specification. *)
From stdpp Require Import list sorting.
From Verif Require Import Base Slots BinSearch LeafNode InnerNode Store Tree Remove
  SlotLemmas NodeLemmas Spec AnySpec Order Logical Descent InsertProof InvLemmas InsertTop
  RemoveLeaf RemoveInner RemoveProof.

Section RemoveTop.
Context {K V A : Type} {KO : KeyOps K} {PF : Profile} {OM : OrdMode} {OI : OrdIf K} {AO : AugOps K V A}.
Notation tr := (tr K V).
Notation tree := (tree K V A).
Notation mark := (K * option V)%type.
Notation seg := (nat * list (K * V))%type.

Section Locate.
Context (rl ri : nat) (SYNC : Prop).
Notation InvAt := (InvAt (A:=A) rl ri SYNC).

(** The leaf a search for [p] ends in. *)
Record home (T : tree) (h : nat) (t : tr) (p : probe K) (id : nat) (kvs : list (K * V)) (mA mB : list mark)
    (s1 s2 : list seg) (st : visit_stack) : Prop := {
  hm_reach : reach t id kvs mA mB s1 s2 st;
  hm_len : length st = h;
  hm_left : ORD -> Forall (mleft p) mA;
  hm_right : ORD -> Forall (mright p) mB;
  hm_desc : descends (t_store T) p h t id st;
  hm_flat : flat t = elems mA ++ kvs ++ elems mB;
  hm_seq : leaf_seq t = s1 ++ (id, kvs) :: s2;
  hm_seqA : concat (map snd s1) = elems mA;
  hm_seqB : concat (map snd s2) = elems mB;
  hm_leaf : leaves (t_store T) !! id = Some (Some (mk_leaf kvs (last_id None s1) (hd_id s2 None)));
  hm_size : length kvs <= 64;
  hm_sorted : ORD -> sortedm (map emark kvs);
}.

Lemma home_exists T h t p : InvAt T h t -> (ORD -> probe_ok p) ->
  exists id kvs mA mB s1 s2 st, home T h t p id kvs mA mB s1 s2 st.
Proof.
  intros [Hroot Hir Hlr Hnd Hso Hsh Hln Hau Hgb] Hp.
  destruct (descend_nshape rl ri SYNC p (t_store T) h t true _ Hp Hir Hsh Hso)
    as (id & kvs & mA & mB & s1 & s2 & st & R & Hst & FA & FB & D).
  pose proof (reach_trav _ _ _ _ _ _ _ _ R) as Etrav.
  pose proof (reach_seq _ _ _ _ _ _ _ _ R) as (Eseq & EA & EB).
  pose proof (nshape_segs _ _ _ _ _ _ Hsh) as Hsz. rewrite Eseq in Hsz.
  apply Forall_app in Hsz as [Hsz1 Hsz2]. apply Forall_cons in Hsz2 as [Hsz2 Hsz3]. simpl in Hsz2.
  rewrite Eseq in Hlr.
  exists id, kvs, mA, mB, s1, s2, st. split; try done.
  - rewrite <- elems_trav, Etrav, !elems_app, elems_emark. done.
  - by apply lrep_lookup.
  - intros HO. specialize (Hso HO). rewrite Etrav in Hso.
    apply sortedm_app in Hso as (_ & Hso & _). by apply sortedm_app in Hso as (Hso & _).
Qed.

Lemma home_get T h t p id kvs mA mB s1 s2 st : ORD -> home T h t p id kvs mA mB s1 s2 st ->
  spec_get p (flat t) = spec_get p kvs.
Proof.
  intros HO H. rewrite (hm_flat _ _ _ _ _ _ _ _ _ _ _ H). apply spec_get_mid.
  - eapply Forall_impl; [apply mleft_elems, (hm_left _ _ _ _ _ _ _ _ _ _ _ H HO)|]. simpl. congruence.
  - eapply Forall_impl; [apply mright_elems, (hm_right _ _ _ _ _ _ _ _ _ _ _ H HO)|]. simpl. congruence.
Qed.

End Locate.

Lemma spec_none p (l : list (K * V)) : Forall (fun x => p x.1 <> Eq) l ->
  spec_remove p l = l /\ spec_get p l = None.
Proof.
  induction 1 as [|[k v] l H Hl [IH1 IH2]]; simpl; [done|].
  simpl in H. destruct (p k); [done| |]; (split; [by f_equal|done]).
Qed.

Lemma spec_remove_mid p (a b c : list (K * V)) :
  Forall (fun x => p x.1 <> Eq) a -> Forall (fun x => p x.1 <> Eq) c ->
  spec_remove p (a ++ b ++ c) = a ++ spec_remove p b ++ c.
Proof.
  intros Ha Hc. induction Ha as [|[k v] a H Ha IH]; simpl.
  - induction b as [|[k v] b IHb]; simpl.
    + by apply spec_none.
    + rewrite IHb. by destruct (p k).
  - simpl in H. rewrite IH. by destruct (p k).
Qed.

Lemma spec_remove_hit p (a : list (K * V)) k v b : Forall (fun x => p x.1 = Lt) a -> p k = Eq ->
  spec_remove p (a ++ (k, v) :: b) = a ++ b /\ spec_get p (a ++ (k, v) :: b) = Some v.
Proof.
  intros Ha Hk. induction Ha as [|[k' v'] a H Ha [IH1 IH2]]; simpl; [by rewrite Hk|].
  simpl in H. rewrite H. split; [by f_equal|done].
Qed.

Section Gen.
Context (rl ri : nat) (SYNC : Prop).
Context (Hrl : rl <= 16) (Hri : ri <= 16).
Notation InvAt := (InvAt (A:=A) rl ri SYNC).

(** The inner nodes outside the tree: one more for each level the tree loses. *)
Definition sheds (T : tree) (h : nat) (t : tr) (T' : tree) (h' : nat) (t' : tr) : Prop :=
  exists ex, (forall i, stray (inners (t_store T')) t' i <-> stray (inners (t_store T)) t i \/ i ∈ ex) /\
    NoDup ex /\ (forall i, i ∈ ex -> ~ stray (inners (t_store T)) t i) /\ h = h' + length ex.

(** With nodes of a single child around ([ri = 0]) the removal may stop there. *)
Lemma remove_by_ref_gen T h t id kvs mA mB s1 s2 st off kv : InvAt T h t ->
  reach t id kvs mA mB s1 s2 st -> kvs !! off = Some kv ->
  (aug_needs_drop (K:=K) (V:=V) (A:=A) = false \/ h <= 1) ->
  (ri = 0 /\ exists j, j < h /\ remove_by_ref T st id off = stuck j) \/
  exists T' h' t', remove_by_ref T st id off = Ok (kv, T') /\ InvAt T' h' t' /\ h' <= h /\
    flat t' = elems mA ++ delete off kvs ++ elems mB /\ sheds T h t T' h' t'.
Proof.
  intros [Hroot Hir Hlr Hnd Hso Hsh Hln Hau Hgb] R Hoff Hdrop.
  pose proof (reach_seq _ _ _ _ _ _ _ _ R) as (Eseq & EA & EB).
  set (s := t_store T) in *.
  assert (leaves s !! id = Some (Some (mk_leaf kvs (last_id None s1) (hd_id s2 None)))) as El.
  { rewrite Eseq in Hlr. by apply lrep_lookup. }
  pose proof (nshape_segs _ _ _ _ _ _ Hsh) as Hsz. rewrite Eseq in Hsz.
  apply Forall_app in Hsz as [_ Hsz2]. apply Forall_cons in Hsz2 as [Hk64 _]. simpl in Hk64.
  pose proof (lookup_lt_Some _ _ _ Hoff) as Hofflt.
  assert (length (delete off kvs) = length kvs - 1) as Hdel by (rewrite length_delete by eauto; done).
  assert (flat t = elems mA ++ kvs ++ elems mB) as Eflat.
  { rewrite <- elems_trav, (reach_trav _ _ _ _ _ _ _ _ R), !elems_app, elems_emark. done. }
  set (fl := elems mA ++ delete off kvs ++ elems mB).
  assert (length fl = length (flat t) - 1 /\ 0 < length (flat t)) as [Hfl Hpos].
  { unfold fl. rewrite Eflat, !app_length, Hdel. lia. }
  set (r0 := if decide (16 < length kvs) then DrDone kv else DrLeafUnderSize off).
  set (s0 := if decide (16 < length kvs) then put_leaf s id (mk_leaf (delete off kvs) (last_id None s1) (hd_id s2 None)) else s).
  assert (exists n0 rr, leaf_try_delete_at (mk_leaf kvs (last_id None s1) (hd_id s2 None)) off = Ok (rr, n0) /\
    match rr with DelDone kv => DrDone kv | DelUnderSize idx => DrLeafUnderSize idx end = r0 /\
    put_leaf s id n0 = s0) as (n0 & rr & Etry & Err & Es0).
  { unfold leaf_try_delete_at, r0, s0. rewrite leaf_lend_mk.
    destruct (decide (16 < length kvs)) as [D|D].
    - rewrite bool_decide_true by done. rewrite (leaf_delete_at_mk _ _ _ _ kv) by done. rewrite obind_Ok.
      eexists _, _. split_and!; done.
    - rewrite bool_decide_false by done. eexists _, _. split_and!; [done|done|].
      unfold put_leaf. rewrite list_insert_id by done. by destruct s. }
  assert (lrep (leaves s) ([] ++ leaf_seq t ++ [])) as Hlr' by (by rewrite app_nil_r).
  destruct (remove_ascend_any rl ri SYNC Hrl Hri t id kvs mA mB s1 s2 st R h (rmin h) true s s0 (t_st T) [] [] off kv r0
    Hir Hsh) as [(Hz & j & Hj & Hst)|(s' & stat' & r' & t' & Hasc & Hln' & Hfr & En & Hir' & Hlr2 & (dead & Hdead & Hdn) & Hpost)]; try done.
  { destruct h; simpl; lia. }
  { unfold leaf_start, r0, s0. rewrite app_nil_r. destruct (decide _); done. }
  { left. split; [destruct Hz as [?|[Hz ?]]; [done|by destruct h]|]. exists j. split; [done|].
    specialize (Hst []). rewrite app_nil_r in Hst.
    unfold remove_by_ref. fold s. unfold get_leaf at 1. rewrite El, obind_Ok, Etry, obind_Ok, Es0, Err, Hst. apply stuck_bind. }
  right.
  fold fl in Hpost. simpl in Hlr2. rewrite app_nil_r in Hlr2.
  specialize (Hasc []). rewrite app_nil_r in Hasc. simpl in Hasc.
  assert (NoDup (inner_ids t' ++ dead)) as Hnd2 by (by rewrite <- Hdead).
  assert (forall i n, inners s' !! i = Some (Some n) -> i ∈ inner_ids t' \/ spent n) as Hgb'.
  { intros i n Hi. destruct (decide (i ∈ inner_ids t)) as [Hin|Hin].
    - rewrite Hdead, elem_of_app in Hin. destruct Hin as [?|Hin]; [by left|]. apply Hdn in Hin. congruence.
    - rewrite Hfr in Hi by done. destruct (Hgb _ _ Hi) as [?|?]; [done|by right]. }
  assert (forall i, stray (inners s') t' i <-> stray (inners s) t i) as Hstray.
  { intros i. unfold stray. split.
    - intros [[n Hn] Hi]. assert (i ∉ inner_ids t) as Hit.
      { rewrite Hdead, elem_of_app. intros [?|Hd]; [done|]. apply Hdn in Hd. congruence. }
      rewrite Hfr in Hn by done. split; [by exists n|done].
    - intros [[n Hn] Hi]. rewrite Hfr by done. split; [by exists n|]. intros Hi'. apply Hi. rewrite Hdead, elem_of_app. by left. }
  assert (forall root a len stt, sheds T h t (mkTree root a len s' stt) h t') as Hsheds.
  { intros. exists []. split_and!; [|constructor|by intros ? ?%elem_of_nil|simpl; lia].
    intros i. cbn [t_store]. rewrite Hstray, elem_of_nil. fold s. tauto. }
  unfold remove_by_ref. fold s. unfold get_leaf at 1. rewrite El, obind_Ok, Etry, obind_Ok, Es0, Err, Hasc, obind_Ok.
  assert (usize_pred (t_len T) = Ok (length fl)) as Epred.
  { rewrite Hln, Hfl. destruct (length (flat t)); [lia|]. simpl. do 2 f_equal. lia. }
  (* a common ending *)
  assert (forall root s'' h' t'', leaves s'' = leaves s'  -> root = nid t'' -> irep SYNC (inners s'') h' t'' ->
    lrep (leaves s'') (leaf_seq t'') -> NoDup (inner_ids t'') -> (ORD -> sortedm (trav t'')) ->
    nshape rl ri (rmin h') true h' t'' -> flat t'' = fl ->
    (forall i n, inners s'' !! i = Some (Some n) -> i ∈ inner_ids t'' \/ spent n) ->
    exists a, new_augmentation_for_id s'' root = Ok a /\
      InvAt (mkTree root a (length fl) s'' stat') h' t'') as Hend.
  { intros root s'' h' t'' _ -> X1 X2 X3 X4 X5 X6 X7.
    destruct (new_aug_ok rl ri SYNC s'' h' t'' _ _ X1 X5) as (a & Ea & Ha).
    { apply lrep_lvok'; [done|]. by eapply nshape_segs. }
    exists a. split; [done|]. split; simpl; try done; [by rewrite X6|]. intros HS. left. by apply Ha. }
  destruct r' as [kv'|kv'|di].
  - destruct Hpost as (-> & Hsh' & Hfl' & Hso').
    rewrite obind_Ok.
    destruct (Hend (t_root T) s' h t') as (a & Ea & HI); try done.
    { by rewrite En. }
    { by apply NoDup_app in Hnd2 as [? _]. }
    { specialize (Hso' [] []). simpl in Hso'. rewrite !app_nil_r in Hso'. by apply Hso'. }
    rewrite Ea, obind_Ok, Epred, obind_Ok. eexists _, h, t'. split_and!; done.
  - destruct Hpost as (-> & (nid' & ks & ch & -> & Hks & Hwide) & Hsh' & Hfl' & Hso').
    destruct h as [|h]; [done|]. rewrite Hroot, <- En. cbn [nid inner_id_unchecked]. rewrite obind_Ok.
    specialize (Hso' [] []). simpl in Hso'. rewrite !app_nil_r in Hso'.
    assert (ORD -> sortedm (trav (TNode nid' ks ch))) as Hso2 by exact (Hso' Hso). clear Hso'. rename Hso2 into Hso'.
    pose proof Hir' as [(aus & Ep & Hla & Hsy) Hch]. unfold get_inner. rewrite Ep, obind_Ok.
    cbn [i_size mk_inner]. destruct Hsh' as (Hks' & Hlen & Hchs).
    apply NoDup_app in Hnd2 as [Hnd2 _].
    destruct ks as [|k0 ks].
    + rewrite decide_True by done. destruct ch as [|c [|]]; simpl in Hlen; try lia.
      change (mkInner _ _ _ _) with (mk_inner ([] : list K) (map nid [c]) aus).
      rewrite (inner_child_id_mk _ _ _ _ (nid c)) by done. rewrite !obind_Ok.
      simpl in Hchs. apply shape_nshape in Hchs. apply Forall_cons in Hch as [Hch _].
      simpl in Hla. rewrite inner_ids_node, ids_cons, app_nil_r in Hnd2. apply NoDup_cons in Hnd2 as [Nn Nd].
      destruct (Hend (nid c) s' h c) as (a & Ea & HI); try done.
      * simpl in Hlr2. by rewrite app_nil_r in Hlr2.
      * simpl in Hso'. by rewrite app_nil_r in Hso'.
      * specialize (Hwide eq_refl). apply Forall_cons in Hwide as [Hwide _].
        destruct h as [|h]; [by eapply nshape_weaken; [|exact Hchs]; simpl; lia|]. destruct c as [|cid ck cch]; [done|].
        destruct Hchs as (Q1 & Q2 & Q3). split_and!; try done; [|lia]. destruct ck; [done|]. simpl. lia.
      * rewrite <- Hfl'. unfold flat. simpl. by rewrite app_nil_r.
      * intros i n Hi. destruct (Hgb' _ _ Hi) as [Hin|?]; [|by right].
        rewrite inner_ids_node, ids_cons, app_nil_r, elem_of_cons in Hin. destruct Hin as [->|?]; [|by left].
        right. rewrite Ep in Hi. injection Hi as <-. destruct aus as [|au [|]]; simpl in Hla; try lia. by eexists _, au.
      * rewrite Ea, obind_Ok, Epred, obind_Ok. eexists _, h, c. split_and!; [done|done|lia| |].
        { rewrite <- Hfl'. unfold flat. simpl. by rewrite app_nil_r. }
        exists [nid']. split_and!; [|repeat constructor; by intros ?%elem_of_nil| |simpl; lia].
        { intros i. cbn [t_store]. fold s. rewrite <- Hstray. unfold stray.
          rewrite inner_ids_node, ids_cons, app_nil_r, elem_of_cons, elem_of_list_singleton. split.
          - intros [? ?]. destruct (decide (i = nid')); [by right|]. left. tauto.
          - intros [[? ?]| ->]; [tauto|]. split; [by eexists|done]. }
        intros i ->%elem_of_list_singleton. fold s. rewrite <- Hstray. intros [_ Hn]. apply Hn. rewrite inner_ids_node. left.
    + rewrite decide_False by done. rewrite obind_Ok.
      destruct (Hend (NInner nid') s' (S h) (TNode nid' (k0 :: ks) ch)) as (a & Ea & HI); try done.
      * split_and!; [simpl; lia|lia|done|done].
      * rewrite Ea, obind_Ok, Epred, obind_Ok. eexists _, (S h), _. split_and!; [done|done|lia|done|apply Hsheds].
  - destruct Hpost as (-> & -> & -> & -> & Hk16). destruct t as [lid lkvs|]; [|done].
    assert (lid = id /\ lkvs = kvs /\ mA = [] /\ mB = [] /\ s1 = [] /\ s2 = []) as (-> & -> & -> & -> & -> & ->) by (inversion R; done).
    rewrite Hroot. cbn [nid leaf_id_unchecked]. rewrite obind_Ok.
    unfold get_leaf. rewrite El, obind_Ok. rewrite (leaf_delete_at_mk _ _ _ _ kv) by done. rewrite !obind_Ok.
    assert (fl = delete off kvs) as Efl0 by (unfold fl; simpl; apply app_nil_r).
    clearbody fl. subst fl. cbn [last_id hd_id].
    destruct (new_aug_ok rl ri SYNC (put_leaf s id (mk_leaf (delete off kvs) None None)) 0 (TLeaf id (delete off kvs)) 0 true)
      as (a & Ea & Ha).
    { done. } { simpl. lia. }
    { constructor; [|constructor]. eexists _, _. cbn [leaves put_leaf set_leaves].
      rewrite list_lookup_insert by (by eapply lookup_lt_Some). split; [done|]. simpl. lia. }
    cbn [nid] in Ea. rewrite Ea, obind_Ok, Epred, obind_Ok.
    eexists _, 0, (TLeaf id (delete off kvs)). split_and!; [done| |done| |].
    + split; simpl; try done.
      * apply (lrep_update _ [] _ _ (delete off kvs) []) in Hlr. exact Hlr.
      * pose proof (sublist_delete kvs off) as Hsub. intros HO. eapply sortedm_sublist; [|exact (Hso HO)].
        clear - Hsub. induction Hsub; simpl; by constructor.
      * lia.
      * by rewrite flat_leaf.
      * intros HS. left. by apply Ha.
    + by rewrite flat_leaf.
    + exists []. split_and!; [|constructor|by intros ? ?%elem_of_nil|simpl; lia]. intros i. rewrite elem_of_nil. unfold stray. simpl. fold s. tauto.
Qed.

Lemma remove_impl_gen T h t p : InvAt T h t -> (ORD -> probe_ok p) -> (N.of_nat (t_len T) < 2 ^ 64)%N ->
  (aug_needs_drop (K:=K) (V:=V) (A:=A) = false \/ h <= 1) ->
  (ri = 0 /\ (ORD -> spec_get p (flat t) <> None) /\ exists j, j < h /\ remove_impl T p = stuck j) \/
  exists r T' h' t', remove_impl T p = Ok (r, T') /\ InvAt T' h' t' /\ h' <= h /\
    match r with
    | Some kv => exists a b, flat t = a ++ kv :: b /\ p kv.1 = Eq /\ flat t' = a ++ b
    | None => flat t' = flat t
    end /\
    (ORD -> match r with Some kv => Some kv.2 | None => None end = spec_get p (flat t) /\
      flat t' = spec_remove p (flat t)) /\ sheds T h t T' h' t'.
Proof.
  intros HI Hp Hlen Hdrop.
  destruct (home_exists rl ri SYNC T h t p HI Hp) as (id & kvs & mA & mB & s1 & s2 & st & Hm).
  pose proof (fun HO => home_get _ _ _ _ _ _ _ _ _ _ _ HO Hm) as Hget.
  pose proof (fuel_inv rl ri SYNC T h t HI) as Hfuel.
  assert (h <= MAX_DEPTH) as Hh.
  { pose proof (inv_len _ _ _ _ _ _ HI) as E. rewrite E in Hlen. eapply height_bound; [apply HI|done]. }
  destruct Hm as [R Hst FA FB (D1 & D2 & D3) Ef Esq EA EB El Hsz Hsk].
  destruct (leaf_locate_any p kvs (last_id None s1) (hd_id s2 None) Hp Hsz Hsk) as (r & Er & Hr).
  unfold remove_impl, key_to_ref. rewrite (inv_root _ _ _ _ _ _ HI), D2 by (done || simpl; lia).
  assert (forall f st0, key_to_ref_loop f (t_store T) (NLeaf id) p st0 =
    match r with ROk idx => Ok (Some (st0, id, idx)) | RErr _ => Ok None end) as Hkr.
  { intros f st0. destruct f; simpl; unfold get_leaf; rewrite El, obind_Ok, Er, obind_Ok; done. }
  rewrite Hkr, app_nil_r.
  assert (ORD -> Forall (fun x : K * V => p x.1 <> Eq) (elems mA)) as FA'
    by (intros HO; eapply Forall_impl; [exact (mleft_elems _ _ (FA HO))|]; simpl; congruence).
  assert (ORD -> Forall (fun x : K * V => p x.1 <> Eq) (elems mB)) as FB'
    by (intros HO; eapply Forall_impl; [exact (mright_elems _ _ (FB HO))|]; simpl; congruence).
  destruct r as [i|i].
  - destruct Hr as (a & k & v & b & -> & -> & Hk & Hab). rewrite obind_Ok.
    destruct (remove_by_ref_gen T h t id _ mA mB s1 s2 st (length a) (k, v) HI R) as [(Hz & j & Hj & E)|(T' & h' & t' & E & HI' & Hh' & Ef' & Hsd)];
      [by apply lookup_middle'|done|left|right].
    { split; [done|]. split; [|exists j; by rewrite E, stuck_bind]. intros HO. destruct (Hab HO) as [Ha Hb].
      rewrite Hget by done. by destruct (spec_remove_hit p a k v b Ha Hk) as [_ ->]. }
   
    rewrite E, obind_Ok. rewrite delete_middle' in Ef' by done.
    eexists (Some (k, v)), T', h', t'. split_and!; try done.
    + exists (elems mA ++ a), (b ++ elems mB). rewrite Ef, Ef', <- !app_assoc. done.
    + intros HO. destruct (Hab HO) as [Ha Hb]. destruct (spec_remove_hit p a k v b Ha Hk) as [E1 E2].
      rewrite Hget, E2 by done. split; [done|]. rewrite Ef', Ef, spec_remove_mid by auto. by rewrite E1.
  - destruct Hr as (a & b & -> & -> & Hab). rewrite obind_Ok.
    right. exists None, T, h, t. split_and!; try done.
    2: { exists []. split_and!; [|constructor|by intros ? ?%elem_of_nil|simpl; lia]. intros i. rewrite elem_of_nil. tauto. }
    intros HO. destruct (Hab HO) as [Ha Hb].
    assert (Forall (fun x : K * V => p x.1 <> Eq) (flat t)) as Hnone.
    { specialize (FA' HO). specialize (FB' HO). rewrite Ef, !Forall_app. split_and!; try done; eapply Forall_impl; try done; simpl; congruence. }
    destruct (spec_none _ _ Hnone) as [E1 E2].
    by rewrite E1, E2.
Qed.

Lemma remove_gen T h t p : InvAt T h t -> (ORD -> probe_ok p) -> (N.of_nat (t_len T) < 2 ^ 64)%N ->
  (aug_needs_drop (K:=K) (V:=V) (A:=A) = false \/ h <= 1) ->
  (ri = 0 /\ (ORD -> spec_get p (flat t) <> None) /\ exists j, j < h /\ remove T p = stuck j) \/
  exists o T' h' t', remove T p = Ok (o, T') /\ InvAt T' h' t' /\ h' <= h /\
    del_any p (flat t) o (flat t') /\
    (ORD -> o = spec_get p (flat t) /\ flat t' = spec_remove p (flat t)) /\ sheds T h t T' h' t'.
Proof.
  intros HI Hp Hlen Hdrop. destruct (remove_impl_gen T h t p HI Hp Hlen Hdrop) as [(Hz & Hg & j & Hj & E)|(r & T' & h' & t' & E & HI' & Hh & Hr & Hs & Hsd)];
    unfold remove; rewrite E; [left; split; [done|]; split; [done|]; exists j; by rewrite stuck_bind|]. right. rewrite obind_Ok. exists (match r with Some kv => Some kv.2 | None => None end), T', h', t'.
  split_and!; try done. destruct r as [[k v]|]; [|done].
  destruct Hr as (a & b & -> & Hk & ->). exists a, k, b. done.
Qed.
End Gen.

Section Top.
Context (rl ri : nat) (SYNC : Prop).
Context (Hrl : rl <= 16) (Hri : 1 <= ri <= 16).
Notation InvAt := (InvAt (A:=A) rl ri SYNC).

Lemma remove_by_ref_ok T h t id kvs mA mB s1 s2 st off kv : InvAt T h t ->
  reach t id kvs mA mB s1 s2 st -> kvs !! off = Some kv ->
  (aug_needs_drop (K:=K) (V:=V) (A:=A) = false \/ h <= 1) ->
  exists T' h' t', remove_by_ref T st id off = Ok (kv, T') /\ InvAt T' h' t' /\ h' <= h /\
    flat t' = elems mA ++ delete off kvs ++ elems mB /\ sheds T h t T' h' t'.
Proof.
  intros. destruct (remove_by_ref_gen rl ri SYNC Hrl (proj2 Hri) T h t id kvs mA mB s1 s2 st off kv) as [[? _]|H']; try done. lia.
Qed.

Lemma remove_impl_any T h t p : InvAt T h t -> (ORD -> probe_ok p) -> (N.of_nat (t_len T) < 2 ^ 64)%N ->
  (aug_needs_drop (K:=K) (V:=V) (A:=A) = false \/ h <= 1) ->
  exists r T' h' t', remove_impl T p = Ok (r, T') /\ InvAt T' h' t' /\ h' <= h /\
    match r with
    | Some kv => exists a b, flat t = a ++ kv :: b /\ p kv.1 = Eq /\ flat t' = a ++ b
    | None => flat t' = flat t
    end /\
    (ORD -> match r with Some kv => Some kv.2 | None => None end = spec_get p (flat t) /\
      flat t' = spec_remove p (flat t)) /\ sheds T h t T' h' t'.
Proof.
  intros. destruct (remove_impl_gen rl ri SYNC Hrl (proj2 Hri) T h t p) as [[? _]|H']; try done. lia.
Qed.

Lemma remove_any T h t p : InvAt T h t -> (ORD -> probe_ok p) -> (N.of_nat (t_len T) < 2 ^ 64)%N ->
  (aug_needs_drop (K:=K) (V:=V) (A:=A) = false \/ h <= 1) ->
  exists o T' h' t', remove T p = Ok (o, T') /\ InvAt T' h' t' /\ h' <= h /\
    del_any p (flat t) o (flat t') /\
    (ORD -> o = spec_get p (flat t) /\ flat t' = spec_remove p (flat t)) /\ sheds T h t T' h' t'.
Proof.
  intros. destruct (remove_gen rl ri SYNC Hrl (proj2 Hri) T h t p) as [[? _]|H']; try done. lia.
Qed.

Lemma remove_ok T h t p : ORD -> InvAt T h t -> probe_ok p -> (N.of_nat (t_len T) < 2 ^ 64)%N ->
  (aug_needs_drop (K:=K) (V:=V) (A:=A) = false \/ h <= 1) ->
  exists T' h' t', remove T p = Ok (spec_get p (flat t), T') /\ InvAt T' h' t' /\ h' <= h /\
    flat t' = spec_remove p (flat t).
Proof.
  intros HO HI Hp Hlen Hdrop.
  destruct (remove_any T h t p HI (fun _ => Hp) Hlen Hdrop) as (o & T' & h' & t' & E & HI' & Hh & _ & Hs & _).
  destruct (Hs HO) as [-> Ef]. by exists T', h', t'.
Qed.
End Top.
End RemoveTop.
