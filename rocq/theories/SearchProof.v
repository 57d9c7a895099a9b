(** Access through a user's [SearchAugmentation] whose answers are in range. *)
From stdpp Require Import list sorting.
From Verif Require Import Base Slots BinSearch LeafNode InnerNode Store Tree Remove Iterators Augment BulkLoad History
  SlotLemmas NodeLemmas Spec SearchSpec Order Logical Descent InsertProof InvLemmas InsertTop
  RemoveLeaf RemoveInner RemoveProof RemoveTop Lookup RefProof AugProof IterProof IntoProof HistProof HistTop AugTop.

Section SearchProof.
Context {K V A : Type} {KO : KeyOps K} {PF : Profile} {OL : OrdLaws K} {AO : AugOps K V A}.
Notation tr := (tr K V).
Notation tree := (tree K V A).
Context {Q : Type} {SO : SearchOps K V A Q}.
Context (HS : search_in_range (K:=K) (V:=V) (A:=A) (Q:=Q)).

Lemma ref_by_aug_any (SYNC : Prop) rl ri (s : store K V A) h m b (t : tr) q fuel st0 :
  irep SYNC (inners s) h t -> nshape rl ri m b h t -> Forall (lvok (leaves s)) (leaf_seq t) ->
  h <= fuel -> h + length st0 <= MAX_DEPTH ->
  ref_by_aug_loop fuel s (nid t) q st0 = Ok None \/
  exists id kvs mA mB s1 s2 st off, reach t id kvs mA mB s1 s2 st /\
      ref_by_aug_loop fuel s (nid t) q st0 = Ok (Some (st ++ st0, id, off)) /\ off < length kvs.
Proof.
  destruct HS as [HSl HSi].
  revert m b t q fuel st0. induction h as [|h IH]; intros m b [id kvs|id ks ch] q fuel st0 Hi Hn Hl Hf Hd; try done.
  - apply Forall_cons in Hl as [(p & n & El & Hz) _]. simpl in El, Hz.
    assert (ref_by_aug_loop fuel s (nid (TLeaf id kvs)) q st0 =
      match locate_in_leaf (A:=A) q (keysof kvs) (valsof kvs) with None => Ok None | Some slot => Ok (Some (st0, id, slot)) end) as Er.
    { destruct fuel; cbn [ref_by_aug_loop nid]; unfold get_leaf; rewrite El, obind_Ok, leaf_keys_mk by done;
        rewrite obind_Ok, leaf_values_mk by done; rewrite obind_Ok; done. }
    specialize (HSl q (keysof kvs) (valsof kvs)). rewrite keysof_length, valsof_length in HSl. pose proof (fun i => HSl i eq_refl Hz) as HSl'.
    destruct (locate_in_leaf (A:=A) q (keysof kvs) (valsof kvs)) as [j|]; [|by left].
    right. exists id, kvs, [], [], [], [], [], j. split_and!; [constructor|done|by apply HSl'].
  - destruct fuel as [|fuel]; [lia|]. destruct Hi as [Hnr Hi]. destruct Hn as (Hk & Hc & Hs).
    destruct (node_rep_fits _ _ _ _ _ Hnr (proj2 Hk) Hc) as (aus & E & Hfit & Ha).
    cbn [ref_by_aug_loop nid]. unfold get_inner. rewrite E, obind_Ok, inner_keys_mk by done.
    rewrite obind_Ok, inner_augmentations_mk by done. rewrite obind_Ok.
    assert (length aus = length ch) as La by (destruct Hfit as (_ & L1 & L2); rewrite map_length in *; lia).
    specialize (HSi q ks aus).
    destruct (locate_in_inner (V:=V) q ks aus) as [[i q']|]; [|by left].
    specialize (HSi i q' ltac:(lia) ltac:(destruct Hk; lia) eq_refl).
    destruct (lookup_lt_is_Some_2 ch i ltac:(lia)) as [c Hci].
    destruct (elem_of_list_split_length _ _ _ Hci) as (cl & cr & -> & ->).
    assert (exists kl kr, ks = kl ++ kr /\ length kl = length cl /\ length kr = length cr) as (kl & kr & -> & L1 & L2).
    { exists (take (length cl) ks), (drop (length cl) ks). rewrite take_drop, take_length, drop_length.
      rewrite app_length in Hc. simpl in Hc. split_and!; [done|lia|lia]. }
    rewrite inner_child_id_mk with (c := nid c); [|by rewrite map_app; simpl; apply lookup_middle'; rewrite map_length].
    rewrite obind_Ok. unfold stack_push. rewrite decide_True by lia. rewrite obind_Ok.
    apply Forall_app in Hi as [_ Hi]. apply Forall_cons in Hi as [Hi _].
    apply chs_app in Hs as (_ & Hs & _).
    assert (Forall (lvok (leaves s)) (leaf_seq c)) as Hlc.
    { change (leaf_seq (TNode id (kl ++ kr) (cl ++ c :: cr))) with (concat (map leaf_seq (cl ++ c :: cr))) in Hl.
      rewrite map_app, concat_app in Hl. apply Forall_app in Hl as [_ Hl]. simpl in Hl. by apply Forall_app in Hl as [Hl _]. }
    destruct (IH _ _ c q' fuel ((id, length cl, nid c) :: st0) Hi (proj1 (shape_nshape _ _ _ _ _) Hs) Hlc ltac:(lia) ltac:(simpl; lia))
      as [Er|(id' & kvs & mA & mB & s1 & s2 & st & off & Rc & Er & Ho)]; [by left|].
    right. exists id', kvs, (zl cl kl ++ mA), (mB ++ zr kr cr). eexists _, _, (st ++ [(id, length cl, nid c)]), off.
    split; [by constructor|]. rewrite Er. split; [by rewrite <- app_assoc|done].
Qed.

Lemma search_found b (T : tree) l q : reachable b T l ->
  get_ref_by_augmentation T q = Ok None \/ exists j, found b T l q j.
Proof.
  intros Hr. destruct (reachable_any False b T l Hr) as (ri & h & t & Hlow & Hri & HI & Hf & Ha & Hof & Hh); [done|].
  assert (Forall (lvok (leaves (t_store T))) (leaf_seq t)) as Hlv.
  { apply lrep_lvok'; [apply HI|]. eapply nshape_segs. apply HI. }
  unfold found, get_ref_by_augmentation. rewrite (inv_root _ _ _ _ _ _ HI).
  destruct (ref_by_aug_any False (low b) ri (t_store T) h _ _ t q (descend_fuel (t_store T)) []
      (inv_irep _ _ _ _ _ _ HI) (inv_shape _ _ _ _ _ _ HI) Hlv (fuel_inv (low b) ri False T h t HI) ltac:(simpl; lia))
    as [E|(id & kvs & mA & mB & s1 & s2 & st & off & R & E & Ho)]; [by left|].
  right. rewrite app_nil_r in E. exists (length (elems mA) + off), False, ri, h, t, id, kvs, mA, mB, s1, s2, st, off.
  rewrite <- (inv_root _ _ _ _ _ _ HI). rewrite <- (inv_root _ _ _ _ _ _ HI) in E. do 9 (split; [done|]). done.
Qed.

Lemma search_access b (T : tree) l q : reachable b T l ->
  (get_by_augmentation T q = Ok None /\ (forall f, get_mut_by_augmentation T q f = Ok (None, T)) /\
   remove_by_augmentation T q = Ok (None, T)) \/
  exists j k v, l !! j = Some (k, v) /\ get_by_augmentation T q = Ok (Some (k, v)) /\
    (forall f, exists T', get_mut_by_augmentation T q f = Ok (Some v, T') /\ reachable b T' (<[j := (k, f v)]> l)) /\
    (removal_ok (A:=A) b l ->
     exists T', remove_by_augmentation T q = Ok (Some (k, v), T') /\ reachable b T' (delete j l)).
Proof.
  intros Hr. destruct (search_found b T l q Hr) as [E|[j Hj]].
  - left. unfold get_by_augmentation, get_mut_by_augmentation, remove_by_augmentation. rewrite E. done.
  - right. destruct (found_get _ _ _ _ _ Hj) as ([k v] & El & Eg). exists j, k, v. split_and!; [done|done| |].
    + intros f. destruct (found_get_mut _ _ _ _ _ f Hr Hj) as (k' & v' & T' & E' & Em & Hr').
      rewrite El in E'. injection E' as <- <-. by exists T'.
    + intros Hrm. destruct (found_remove _ _ _ _ _ Hr Hrm Hj) as (kv & T' & E' & Em & Hr').
      rewrite El in E'. injection E' as <-. by exists T'.
Qed.
End SearchProof.
