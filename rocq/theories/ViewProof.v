(** Every tree with the invariant shows a view; visitors walk it. *)
From stdpp Require Import list sorting.
From Verif Require Import Base Slots BinSearch LeafNode InnerNode Store Tree Remove Augment View
  SlotLemmas NodeLemmas Spec Order Logical Descent InsertProof InvLemmas InsertTop
  RemoveLeaf RemoveInner RemoveProof RemoveTop Lookup AugProof.

Section ViewProof.
Context {K V A : Type} {KO : KeyOps K} {PF : Profile} {OL : OrdLaws K} {AO : AugOps K V A}.
Notation tr := (tr K V).
Notation tree := (tree K V A).
Notation store := (store K V A).
Notation view := (view K V).

Fixpoint of_tr (t : tr) : view :=
  match t with
  | TLeaf id kvs => VLeaf id kvs
  | TNode id ks ch => VInner id ks (map of_tr ch)
  end.

Lemma of_tr_id t : view_id (of_tr t) = nid t.
Proof. by destruct t. Qed.
Lemma of_tr_entries t : view_entries (of_tr t) = flat t.
Proof.
  induction t as [id kvs|id ks ch IH] using tr_ind'; [by rewrite flat_leaf|].
  rewrite flat_node. simpl. rewrite map_map. f_equal. apply map_ext_in. intros c Hc.
  rewrite Forall_forall in IH. by apply IH, elem_of_list_In.
Qed.
Lemma of_tr_leaf_ids t : view_leaf_ids (of_tr t) = map fst (leaf_seq t).
Proof.
  induction t as [id kvs|id ks ch IH] using tr_ind'; [done|]. simpl. rewrite map_map, concat_map, map_map. f_equal.
  apply map_ext_in. intros c Hc. rewrite Forall_forall in IH. by apply IH, elem_of_list_In.
Qed.
Lemma of_tr_inner_ids t : view_inner_ids (of_tr t) = inner_ids t.
Proof.
  induction t as [id kvs|id ks ch IH] using tr_ind'; [done|]. simpl. rewrite map_map. f_equal. f_equal.
  apply map_ext_in. intros c Hc. rewrite Forall_forall in IH. by apply IH, elem_of_list_In.
Qed.
Lemma of_tr_aug t : view_aug (A:=A) (of_tr t) = aug_of t.
Proof.
  induction t as [id kvs|id ks ch IH] using tr_ind'; [done|]. simpl. rewrite map_map. f_equal.
  apply map_ext_in. intros c Hc. rewrite Forall_forall in IH. by apply IH, elem_of_list_In.
Qed.

Lemma of_tr_separated t rl ri m b h : nshape rl ri m b h t -> sortedm (trav t) -> separated (of_tr t).
Proof.
  revert m b t. induction h as [|h IH]; intros m b [id kvs|id ks ch] Hn Hs; try done; [constructor|].
  destruct Hn as (Hk & Hc & Hch). simpl. constructor.
  - intros i s j w kv Hi Hj Hin. rewrite list_lookup_fmap in Hj.
    destruct (ch !! j) as [c|] eqn:Ej; [|done]. injection Hj as <-. rewrite of_tr_entries in Hin.
    apply elem_of_list_split_length in Hi as (ka & kb & -> & Hia).
    rewrite app_length in Hc. simpl in Hc.
    assert (exists ca cb, ch = ca ++ cb /\ length ca = S (length ka)) as (ca & cb & -> & Hca).
    { exists (take (S (length ka)) ch), (drop (S (length ka)) ch). rewrite take_drop, take_length. split; [done|lia]. }
    rewrite (trav_node_app id id id ca cb ka s kb Hca) in Hs.
    apply sortedm_app in Hs as (_ & Hs2 & Hs1). apply sortedm_cons in Hs2 as [_ Hs2]. rewrite Forall_forall in Hs2.
    assert (forall id' ks' (cs : list tr), c ∈ cs -> (kv.1, Some kv.2) ∈ trav (TNode id' ks' cs)) as Hmem.
    { intros id' ks' cs Hcs. apply elem_of_elems. rewrite elems_trav, flat_node.
      apply elem_of_list_In, in_concat. exists (flat c). split; [|apply elem_of_list_In; by destruct kv].
      apply in_map, elem_of_list_In, Hcs. }
    split; intros Hij.
    + rewrite lookup_app_l in Ej by lia. apply elem_of_list_lookup_2 in Ej.
      specialize (Hs1 _ (s, None) (Hmem id ka _ Ej) ltac:(apply elem_of_cons; by left)).
      unfold ltm in Hs1. simpl in Hs1. destruct (kcmp kv.1 s); [by destruct Hs1|done|done].
    + rewrite lookup_app_r in Ej by lia. apply elem_of_list_lookup_2 in Ej.
      specialize (Hs2 _ (Hmem id kb _ Ej)). unfold ltm in Hs2. simpl in Hs2. intros E.
      rewrite (ord_sym kv.1 s), E in Hs2. simpl in Hs2. done.
  - apply Forall_map, Forall_forall. intros c Hin.
    apply elem_of_list_split in Hin as (cl & cr & ->).
    assert (exists kl kr, ks = kl ++ kr /\ length kl = length cl /\ length kr = length cr) as (kl & kr & -> & L1 & L2).
    { exists (take (length cl) ks), (drop (length cl) ks). rewrite take_drop, take_length, drop_length.
      rewrite app_length in Hc. simpl in Hc. split_and!; [done|lia|lia]. }
    rewrite trav_node in Hs by done. apply sortedm_app in Hs as (_ & Hs & _). apply sortedm_app in Hs as (Hs & _ & _).
    apply chs_app in Hch as (_ & Hch & _). by eapply IH; [apply shape_nshape|].
Qed.

Lemma of_tr_shows (s : store) SYNC rl ri m b h t : irep SYNC (inners s) h t -> nshape rl ri m b h t ->
  Forall (lvok (leaves s)) (leaf_seq t) -> shows s (of_tr t).
Proof.
  revert m b t. induction h as [|h IH]; intros m b [id kvs|id ks ch] Hi Hn Hl; try done.
  - apply Forall_cons in Hl as [(p & n & El & Hz) _]. simpl in El, Hz. econstructor.
    + unfold get_leaf. by rewrite El.
    + by rewrite leaf_keys_mk.
    + by rewrite leaf_values_mk.
  - destruct Hi as [Hnr Hi]. destruct Hn as (Hk & Hc & Hs).
    destruct (node_rep_fits _ _ _ _ _ Hnr (proj2 Hk) Hc) as (aus & E & Hfit & _). econstructor.
    + unfold get_inner. by rewrite E.
    + by rewrite inner_keys_mk.
    + by rewrite map_length.
    + intros i w Hw. rewrite list_lookup_fmap in Hw. destruct (ch !! i) as [c|] eqn:Ec; [|done]. injection Hw as <-.
      rewrite of_tr_id. apply inner_child_id_mk. by rewrite list_lookup_fmap, Ec.
    + apply Forall_map, Forall_forall. intros c Hin.
      apply elem_of_list_split in Hin as (cl & cr & ->).
      apply Forall_app in Hi as [_ Hi]. apply Forall_cons in Hi as [Hi _].
      apply chs_app in Hs as (_ & Hs & _). eapply IH; [done|by apply shape_nshape|].
      change (leaf_seq (TNode id ks (cl ++ c :: cr))) with (concat (map leaf_seq (cl ++ c :: cr))) in Hl.
      rewrite map_app, concat_app in Hl. apply Forall_app in Hl as [_ Hl]. simpl in Hl. by apply Forall_app in Hl as [Hl _].
Qed.

Lemma of_tr_occupied rl ri lo b h t : lo <= 16 -> (b = true -> lo <= rl /\ lo <= ri) -> shape rl ri b h t -> occupied lo lo h (of_tr t).
Proof.
  intros H16. revert b t. induction h as [|h IH]; intros b [id kvs|id ks ch] Hlo Hs; try done; simpl in *.
  - destruct b; [destruct (Hlo eq_refl); lia|lia].
  - destruct Hs as (Hk & Hc & Hs). split; [destruct b; [destruct (Hlo eq_refl); lia|lia]|].
    split; [by rewrite map_length|]. apply Forall_map, Forall_forall. intros c Hin.
    destruct (chs_elem _ _ _ _ Hs Hin) as [Hx|Hx]; [apply (IH false)|apply (IH b)]; done.
Qed.
Lemma of_tr_top rl ri lo m h t : lo <= 16 -> lo <= rl -> lo <= ri -> nshape rl ri m true h t -> occupied m lo h (of_tr t).
Proof.
  intros H1 H2 H3. destruct h, t; try done. simpl. intros (Hk & Hc & Hs). split; [done|]. split; [by rewrite map_length|].
  apply Forall_map, Forall_forall. intros c Hin. destruct (chs_elem _ _ _ _ Hs Hin) as [Hx|Hx]; [apply (of_tr_occupied rl ri lo false)|apply (of_tr_occupied rl ri lo true)]; done.
Qed.

Lemma visit_loop_ok {S R} (vis : visitor K V A S R) (s : store) rl ri m b h t st fuel :
  irep True (inners s) h t -> nshape rl ri m b h t -> Forall (lvok (leaves s)) (leaf_seq t) -> h <= fuel ->
  descend_visit_loop fuel s (nid t) vis st = walk vis (of_tr t) st.
Proof.
  revert m b t st fuel. induction h as [|h IH]; intros m b [id kvs|id ks ch] st fuel Hi Hn Hl Hf; try done.
  - apply Forall_cons in Hl as [(p & n & El & Hz) _]. simpl in El, Hz.
    destruct fuel; cbn [descend_visit_loop nid]; unfold get_leaf; rewrite El, obind_Ok, leaf_keys_mk by done;
      rewrite obind_Ok, leaf_values_mk by done; done.
  - destruct fuel as [|fuel]; [lia|]. destruct Hi as [Hnr Hi]. destruct Hn as (Hk & Hc & Hs).
    destruct (node_rep_fits _ _ _ _ _ Hnr (proj2 Hk) Hc) as (aus & E & Hfit & Ha). specialize (Ha I). subst aus.
    cbn [descend_visit_loop nid]. unfold get_inner. rewrite E, obind_Ok, inner_keys_mk by done.
    rewrite obind_Ok, inner_augmentations_mk by done. rewrite obind_Ok.
    cbn [walk of_tr]. assert (map view_aug (map of_tr ch) = map aug_of ch) as ->.
    { rewrite map_map. apply map_ext. apply of_tr_aug. }
    destruct (visit_inner vis st ks (map aug_of ch)) as [st' [i| |r]]; try done.
    cbn [i_size mk_inner]. case_decide as Hi'.
    + rewrite nth_overflow; [done|]. rewrite !map_length. lia.
    + destruct (lookup_lt_is_Some_2 ch i ltac:(lia)) as [c Hci].
      rewrite (inner_child_id_mk _ _ _ _ (nid c)) by (by rewrite list_lookup_fmap, Hci). rewrite obind_Ok.
      rewrite map_map. apply elem_of_list_split_length in Hci as (cl & cr & -> & ->).
      rewrite map_app, app_nth2 by (rewrite map_length; lia). rewrite map_length, Nat.sub_diag. simpl.
      apply Forall_app in Hi as [_ Hi]. apply Forall_cons in Hi as [Hi _].
      apply chs_app in Hs as (_ & Hs & _). eapply IH; [done|by apply shape_nshape| |lia].
      change (leaf_seq (TNode id ks (cl ++ c :: cr))) with (concat (map leaf_seq (cl ++ c :: cr))) in Hl.
      rewrite map_app, concat_app in Hl. apply Forall_app in Hl as [_ Hl]. simpl in Hl. by apply Forall_app in Hl as [Hl _].
Qed.

Section Inv.
Context (rl ri : nat).
Lemma inv_lvok (SYNC : Prop) (T : tree) h t : InvAt rl ri SYNC T h t -> Forall (lvok (leaves (t_store T))) (leaf_seq t).
Proof. intros HI. apply lrep_lvok'; [apply HI|]. eapply nshape_segs. apply HI. Qed.

Lemma inv_shows (SYNC : Prop) (T : tree) h t : InvAt rl ri SYNC T h t ->
  tree_shows T (of_tr t) /\ view_entries (of_tr t) = flat t /\ separated (of_tr t) /\
  (forall lo, lo <= rl -> lo <= ri -> lo <= 16 -> occupied (match h with 0 => 0 | _ => 1 end) lo h (of_tr t)).
Proof.
  intros HI. split; [split|split; [|split]].
  - rewrite of_tr_id. apply HI.
  - eapply of_tr_shows; [apply HI|apply HI|]. by eapply inv_lvok.
  - apply of_tr_entries.
  - eapply of_tr_separated; [apply HI|by apply (inv_sorted _ _ _ _ _ _ HI)].
  - intros lo H1 H2 H3. apply (of_tr_top rl ri); try done. apply (inv_shape _ _ _ _ _ _ HI).
Qed.

Lemma visit_ok {S R} (vis : visitor K V A S R) (T : tree) h t st : InvAt rl ri True T h t ->
  descend_visit T vis st = walk vis (of_tr t) st.
Proof.
  intros HI. unfold descend_visit. rewrite (inv_root _ _ _ _ _ _ HI).
  eapply visit_loop_ok; [apply HI|apply HI|by eapply inv_lvok|]. apply (fuel_inv rl ri True T h t HI).
Qed.
End Inv.
End ViewProof.
