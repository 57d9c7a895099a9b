(** Removal, the inner levels: rotating and merging two neighbouring inner nodes. *)
From stdpp Require Import list sorting.
From Verif Require Import Base Slots BinSearch LeafNode InnerNode Store Tree Remove
  SlotLemmas NodeLemmas Spec Order Logical Descent InsertProof InvLemmas RemoveLeaf.

Section RemoveInner.
Context {K V A : Type} {KO : KeyOps K} {PF : Profile} {OL : OrdLaws K} {AO : AugOps K V A}.
Notation tr := (tr K V).
Notation store := (store K V A).
Context (SYNC : Prop).

Lemma inner_lend_mk (ks : list K) cs (aus : list A) :
  inner_able_to_lend (mk_inner ks cs aus) = bool_decide (16 < length ks).
Proof. done. Qed.

Lemma inner_aug_mk (ks : list K) cs (aus : list A) : inner_fits ks cs aus ->
  inner_aug (V:=V) (mk_inner ks cs aus) = Ok (from_inner (V:=V) ks aus).
Proof.
  intros H. unfold inner_aug. rewrite inner_keys_mk, obind_Ok, inner_augmentations_mk by done. done.
Qed.

Section Pair.
Context (s : store) (h : nat) (kl kr : list K) (sep : K) (cl cr : list tr) (lid rid : nat)
  (k1 k2 : list K) (ch1 ch2 : list tr) (aus : list A).
Context (L1 : length kl = length cl) (La : length aus = length cl + S (S (length cr))).
Context (H1 : length ch1 = S (length k1)) (H2 : length ch2 = S (length k2)).
Context (K1 : length k1 <= 64) (K2 : length k2 <= 64).
Context (I1 : irep SYNC (inners s) (S h) (TNode lid k1 ch1)).
Context (I2 : irep SYNC (inners s) (S h) (TNode rid k2 ch2)).
Context (Nd : NoDup ((lid :: ids ch1) ++ rid :: ids ch2)).
Context (Hau : sync_pair SYNC cl cr aus).

Let cs := map nid (cl ++ TNode lid k1 ch1 :: TNode rid k2 ch2 :: cr).
Let node := mk_inner (kl ++ sep :: kr) cs aus.

Local Lemma cs_lookup : cs !! length cl = Some (NInner lid) /\ cs !! (length cl + 1) = Some (NInner rid).
Proof.
  unfold cs. rewrite map_app. simpl. rewrite Nat.add_1_r.
  destruct (pair_lookup (map nid cl) (map nid cr) (NInner lid) (NInner rid)) as [E1 E2].
  by rewrite map_length in E1, E2.
Qed.

Local Lemma pair_ids : lid <> rid /\ lid ∉ ids ch1 /\ lid ∉ ids ch2 /\ rid ∉ ids ch1 /\ rid ∉ ids ch2 /\
  NoDup (ids ch1) /\ NoDup (ids ch2) /\ (forall i, i ∈ ids ch1 -> i ∉ ids ch2) /\
  lid < length (inners s) /\ rid < length (inners s).
Proof.
  apply NoDup_app in Nd as (N1 & N2 & N3). apply NoDup_cons in N1 as [N1 N1']. apply NoDup_cons in N3 as [N3 N3'].
  assert (forall i, i ∈ lid :: ids ch1 -> i <> rid /\ i ∉ ids ch2) as N4.
  { intros i Hi. pose proof (N2 i Hi) as X. rewrite elem_of_cons in X. split; [intros ->; apply X; by left|tauto]. }
  destruct (N4 lid) as [X1 X2]; [by constructor|].
  split_and!; try done.
  - intros Hi. destruct (N4 rid) as [X3 _]; [by constructor|]. done.
  - intros i Hi. destruct (N4 i); [by constructor|done].
  - eapply (irep_lt SYNC _ (S h) _ lid); [exact I1|]. simpl. constructor.
  - eapply (irep_lt SYNC _ (S h) _ rid); [exact I2|]. simpl. constructor.
Qed.

Local Lemma children_frame is' : (forall i, i <> lid -> i <> rid -> is' !! i = inners s !! i) ->
  Forall (irep SYNC is' h) ch1 /\ Forall (irep SYNC is' h) ch2.
Proof.
  intros Hf. destruct pair_ids as (X1 & X2 & X3 & X4 & X5 & _).
  destruct I1 as [_ F1]. destruct I2 as [_ F2].
  split; eapply Forall_irep_frame; try done; intros i Hi Hlt; apply Hf; intros ->; done.
Qed.

Lemma rotate_right_inner_ok k1' k ch1' c : k1 = k1' ++ [k] -> ch1 = ch1' ++ [c] -> 16 < length k1 -> length k2 < 64 ->
  exists s' aus', try_rotate_right_for_inner_node s node (length cl) =
      Ok (true, s', mk_inner (kl ++ k :: kr) cs aus') /\
    leaves s' = leaves s /\ length (inners s') = length (inners s) /\ length aus' = length aus /\
    (SYNC -> aus' = map aug_of (cl ++ TNode lid k1' ch1' :: TNode rid (sep :: k2) (c :: ch2) :: cr)) /\
    irep SYNC (inners s') (S h) (TNode lid k1' ch1') /\
    irep SYNC (inners s') (S h) (TNode rid (sep :: k2) (c :: ch2)) /\
    (forall i, i <> lid -> i <> rid -> inners s' !! i = inners s !! i).
Proof.
  intros Ek Ec Hk Hk2. destruct cs_lookup as [C1 C2].
  destruct pair_ids as (X1 & X2 & X3 & X4 & X5 & _ & _ & _ & X6 & X7).
  destruct I1 as [(aus1 & E1 & A1 & S1) F1]. destruct I2 as [(aus2 & E2 & A2 & S2) F2].
  rewrite Ek in Hk, H1, K1. rewrite Ec, app_length in H1, A1. rewrite app_length in Hk, H1, K1. simpl in Hk, H1, K1, A1.
  destruct (exists_last (l:=aus1)) as (au1 & a & Ea).
  { intros ->. simpl in *. lia. }
  rewrite Ea, app_length in A1. simpl in A1.
  unfold try_rotate_right_for_inner_node, node.
  rewrite (inner_child_id_mk _ _ _ _ _ C2), obind_Ok. cbn [inner_id_unchecked]. rewrite obind_Ok.
  rewrite (inner_child_id_mk _ _ _ _ _ C1), obind_Ok. cbn [inner_id_unchecked]. rewrite obind_Ok.
  unfold get_inner at 1. rewrite E1, obind_Ok. rewrite inner_lend_mk, bool_decide_true by (rewrite Ek, app_length; simpl; lia).
  rewrite Ek, Ec, Ea, map_app. cbn [map].
  rewrite inner_pop_mk.
  2:{ split_and!; rewrite !app_length; rewrite ?map_length; simpl; unfold INNER_N; lia. }
  rewrite obind_Ok.
  rewrite inner_aug_mk by (split_and!; rewrite ?map_length; unfold INNER_N; lia). rewrite obind_Ok.
  rewrite (inner_set_key_mk _ _ _ _ sep) by (by apply lookup_middle'). rewrite obind_Ok.
  rewrite insert_middle' by done.
  unfold get_inner at 1. cbn [inners put_inner set_inners]. rewrite list_lookup_insert_ne by done. rewrite E2, obind_Ok.
  assert (inner_fits k2 (map nid ch2) aus2) as Hf2.
  { split_and!; rewrite ?map_length; unfold INNER_N; lia. }
  rewrite inner_push_front_mk by (done || unfold INNER_N; lia). rewrite obind_Ok.
  assert (inner_fits (sep :: k2) (nid c :: map nid ch2) (a :: aus2)) as Hf2'.
  { split_and!; cbn [length]; rewrite ?map_length; unfold INNER_N; lia. }
  rewrite inner_aug_mk by done. rewrite obind_Ok.
  rewrite inner_set_augmentation_mk by lia. rewrite obind_Ok.
  rewrite inner_set_augmentation_mk by (rewrite insert_length; lia). rewrite obind_Ok.
  assert (SYNC -> au1 = map aug_of ch1' /\ a = aug_of c) as SS.
  { intros HS. specialize (S1 HS). rewrite Ea, Ec, map_app in S1. simpl in S1.
    apply app_inj_2 in S1 as [-> S1]; [|done]. by injection S1. }
  eexists _, _. split; [reflexivity|]. cbn [leaves inners put_inner set_inners].
  assert (forall i, i <> lid -> i <> rid ->
    (<[rid:=Some (mk_inner (sep :: k2) (nid c :: map nid ch2) (a :: aus2))]>
     (<[lid:=Some (mk_inner k1' (map nid ch1') au1)]> (inners s))) !! i = inners s !! i) as Hfr.
  { intros i Hi1 Hi2. by rewrite !list_lookup_insert_ne. }
  destruct (children_frame _ Hfr) as [G1 G2]. rewrite Ec in G1. apply Forall_app in G1 as [G1 Gc].
  inversion Gc as [|? ? Gc' _]; subst.
  split_and!; [done|by rewrite !insert_length|by rewrite !insert_length| | | |done].
  - rewrite Nat.add_1_r. eapply aug_pair_weak; [done| |].
    + intros HS. simpl. by destruct (SS HS) as [-> _].
    + intros HS. simpl. destruct (SS HS) as [_ ->]. by rewrite (S2 HS).
  - split; [|done]. exists au1. split_and!.
    + rewrite list_lookup_insert_ne by done. by apply list_lookup_insert.
    + lia.
    + intros HS. by destruct (SS HS).
  - split; [|by constructor]. exists (a :: aus2). split_and!.
    + cbn [map]. apply list_lookup_insert. by rewrite insert_length.
    + simpl. lia.
    + intros HS. destruct (SS HS) as [_ ->]. by rewrite (S2 HS).
Qed.

Lemma rotate_right_inner_no : ~ 16 < length k1 ->
  try_rotate_right_for_inner_node s node (length cl) = Ok (false, s, node).
Proof.
  intros Hk. destruct cs_lookup as [C1 C2].
  destruct I1 as [(aus1 & E1 & A1 & S1) F1].
  unfold try_rotate_right_for_inner_node, node.
  rewrite (inner_child_id_mk _ _ _ _ _ C2), obind_Ok. cbn [inner_id_unchecked]. rewrite obind_Ok.
  rewrite (inner_child_id_mk _ _ _ _ _ C1), obind_Ok. cbn [inner_id_unchecked]. rewrite obind_Ok.
  unfold get_inner at 1. rewrite E1, obind_Ok. by rewrite inner_lend_mk, bool_decide_false.
Qed.

Lemma rotate_left_inner_ok k k2' c ch2' : k2 = k :: k2' -> ch2 = c :: ch2' -> 16 < length k2 -> length k1 < 64 ->
  exists s' aus', try_rotate_left_for_inner_node s node (length cl) =
      Ok (true, s', mk_inner (kl ++ k :: kr) cs aus') /\
    leaves s' = leaves s /\ length (inners s') = length (inners s) /\ length aus' = length aus /\
    (SYNC -> aus' = map aug_of (cl ++ TNode lid (k1 ++ [sep]) (ch1 ++ [c]) :: TNode rid k2' ch2' :: cr)) /\
    irep SYNC (inners s') (S h) (TNode lid (k1 ++ [sep]) (ch1 ++ [c])) /\
    irep SYNC (inners s') (S h) (TNode rid k2' ch2') /\
    (forall i, i <> lid -> i <> rid -> inners s' !! i = inners s !! i).
Proof.
  intros Ek Ec Hk Hk1. destruct cs_lookup as [C1 C2].
  destruct pair_ids as (X1 & X2 & X3 & X4 & X5 & _ & _ & _ & X6 & X7).
  destruct I1 as [(aus1 & E1 & A1 & S1) F1]. destruct I2 as [(aus2 & E2 & A2 & S2) F2].
  rewrite Ek in Hk, H2, K2. rewrite Ec in H2, A2. cbn [length] in Hk, H2, K2, A2.
  destruct aus2 as [|a au2]; [simpl in *; lia|]. cbn [length] in A2.
  unfold try_rotate_left_for_inner_node, node.
  rewrite (inner_child_id_mk _ _ _ _ _ C2), obind_Ok. cbn [inner_id_unchecked]. rewrite obind_Ok.
  rewrite (inner_child_id_mk _ _ _ _ _ C1), obind_Ok. cbn [inner_id_unchecked]. rewrite obind_Ok.
  unfold get_inner at 1. rewrite E2, obind_Ok. rewrite inner_lend_mk, bool_decide_true by (rewrite Ek; simpl; lia).
  rewrite Ek, Ec. cbn [map].
  rewrite inner_pop_front_mk.
  2:{ split_and!; cbn [length]; rewrite ?map_length; unfold INNER_N; lia. }
  rewrite obind_Ok.
  rewrite inner_aug_mk by (split_and!; rewrite ?map_length; unfold INNER_N; lia). rewrite obind_Ok.
  rewrite (inner_set_key_mk _ _ _ _ sep) by (by apply lookup_middle'). rewrite obind_Ok.
  rewrite insert_middle' by done.
  unfold get_inner at 1. cbn [inners put_inner set_inners]. rewrite list_lookup_insert_ne by done. rewrite E1, obind_Ok.
  assert (inner_fits k1 (map nid ch1) aus1) as Hf1.
  { split_and!; rewrite ?map_length; unfold INNER_N; lia. }
  rewrite inner_push_mk by (done || unfold INNER_N; lia). rewrite obind_Ok.
  assert (inner_fits (k1 ++ [sep]) (map nid ch1 ++ [nid c]) (aus1 ++ [a])) as Hf1'.
  { split_and!; rewrite !app_length; cbn [length]; rewrite ?map_length; unfold INNER_N; lia. }
  rewrite inner_aug_mk by done. rewrite obind_Ok.
  rewrite inner_set_augmentation_mk by lia. rewrite obind_Ok.
  rewrite inner_set_augmentation_mk by (rewrite insert_length; lia). rewrite obind_Ok.
  assert (SYNC -> au2 = map aug_of ch2' /\ a = aug_of c) as SS.
  { intros HS. specialize (S2 HS). rewrite Ec in S2. simpl in S2. by injection S2. }
  eexists _, _. split; [reflexivity|]. cbn [leaves inners put_inner set_inners].
  rewrite list_insert_commute by done.
  assert (forall i, i <> lid -> i <> rid ->
    (<[rid:=Some (mk_inner k2' (map nid ch2') au2)]>
     (<[lid:=Some (mk_inner (k1 ++ [sep]) (map nid ch1 ++ [nid c]) (aus1 ++ [a]))]> (inners s))) !! i = inners s !! i) as Hfr.
  { intros i Hi1 Hi2. by rewrite !list_lookup_insert_ne. }
  destruct (children_frame _ Hfr) as [G1 G2]. rewrite Ec in G2.
  inversion G2 as [|? ? Gc' G2']; subst.
  split_and!; [done|by rewrite !insert_length|by rewrite !insert_length| | | |done].
  - rewrite Nat.add_1_r. eapply aug_pair_weak; [done| |].
    + intros HS. simpl. destruct (SS HS) as [_ ->]. by rewrite (S1 HS), map_app.
    + intros HS. simpl. by destruct (SS HS) as [-> _].
  - split; [|apply Forall_app; split; [done|by constructor]]. exists (aus1 ++ [a]). split_and!.
    + rewrite map_app. simpl. rewrite list_lookup_insert_ne by done. by apply list_lookup_insert.
    + rewrite !app_length. simpl. lia.
    + intros HS. destruct (SS HS) as [_ ->]. by rewrite (S1 HS), map_app.
  - split; [|done]. exists au2. split_and!.
    + apply list_lookup_insert. by rewrite insert_length.
    + lia.
    + intros HS. by destruct (SS HS).
Qed.

Lemma rotate_left_inner_no : ~ 16 < length k2 ->
  try_rotate_left_for_inner_node s node (length cl) = Ok (false, s, node).
Proof.
  intros Hk. destruct cs_lookup as [C1 C2].
  destruct I2 as [(aus2 & E2 & A2 & S2) F2].
  unfold try_rotate_left_for_inner_node, node.
  rewrite (inner_child_id_mk _ _ _ _ _ C2), obind_Ok. cbn [inner_id_unchecked]. rewrite obind_Ok.
  rewrite (inner_child_id_mk _ _ _ _ _ C1), obind_Ok. cbn [inner_id_unchecked]. rewrite obind_Ok.
  unfold get_inner at 1. rewrite E2, obind_Ok. by rewrite inner_lend_mk, bool_decide_false.
Qed.

Lemma merge_inner_ok (L2 : length kr = length cr) (Hk64 : length (kl ++ sep :: kr) <= 64) :
  aug_needs_drop (K:=K) (V:=V) (A:=A) = false -> length k1 + S (length k2) <= 64 ->
  exists s' aus', merge_inner_node s node (length cl) =
      Ok (if decide (MIN_N <= length (kl ++ kr)) then MergeDone else MergeUnderSize, s',
          mk_inner (kl ++ kr) (map nid (cl ++ TNode lid (k1 ++ sep :: k2) (ch1 ++ ch2) :: cr)) aus') /\
    leaves s' = leaves s /\ length (inners s') = length (inners s) /\ length aus' = S (length (kl ++ kr)) /\
    (SYNC -> aus' = map aug_of (cl ++ TNode lid (k1 ++ sep :: k2) (ch1 ++ ch2) :: cr)) /\
    irep SYNC (inners s') (S h) (TNode lid (k1 ++ sep :: k2) (ch1 ++ ch2)) /\
    inners s' !! rid = Some None /\
    (forall i, i <> lid -> i <> rid -> inners s' !! i = inners s !! i).
Proof.
  intros Hnd Hsum. destruct cs_lookup as [C1 C2].
  destruct pair_ids as (X1 & X2 & X3 & X4 & X5 & _ & _ & _ & X6 & X7).
  destruct I1 as [(aus1 & E1 & A1 & S1) F1]. destruct I2 as [(aus2 & E2 & A2 & S2) F2].
  assert (length (kl ++ sep :: kr) = S (length (kl ++ kr))) as Hlk by (rewrite !app_length; simpl; lia).
  assert (length cs = S (S (length (kl ++ kr)))) as Hcs.
  { unfold cs. rewrite map_length, !app_length. simpl. lia. }
  unfold merge_inner_node, node. cbn [i_size mk_inner].
  rewrite decide_True by (rewrite Hlk, app_length; lia).
  change (mkInner (length (kl ++ sep :: kr)) _ _ _) with (mk_inner (kl ++ sep :: kr) cs aus).
  rewrite (inner_child_id_mk _ _ _ _ _ C1), obind_Ok. cbn [inner_id_unchecked]. rewrite obind_Ok.
  rewrite (inner_child_id_mk _ _ _ _ _ C2), obind_Ok. cbn [inner_id_unchecked]. rewrite obind_Ok.
  rewrite (inner_remove_slot_with_right_mk _ _ _ _ sep); [| |by apply lookup_middle'].
  2:{ split_and!; [done|lia|]. rewrite La, Hlk, app_length. lia. }
  rewrite obind_Ok. rewrite delete_middle' by done.
  unfold take_inner. rewrite E2, obind_Ok.
  unfold get_inner. cbn [inners set_inners]. rewrite list_lookup_insert_ne by done. rewrite E1, obind_Ok.
  assert (inner_fits k1 (map nid ch1) aus1) as Hf1.
  { split_and!; rewrite ?map_length; unfold INNER_N; lia. }
  assert (inner_fits k2 (map nid ch2) aus2) as Hf2.
  { split_and!; rewrite ?map_length; unfold INNER_N; lia. }
  rewrite inner_merge_next_mk by done. rewrite obind_Ok.
  rewrite inner_aug_mk.
  2:{ split_and!; rewrite !app_length, ?map_length; simpl; unfold INNER_N; lia. }
  rewrite obind_Ok.
  assert (length (delete (S (length cl)) aus) = S (length (kl ++ kr))) as Hda.
  { rewrite length_delete by (apply lookup_lt_is_Some; lia). rewrite app_length. lia. }
  rewrite inner_set_augmentation_mk by (rewrite Hda, app_length; lia). rewrite obind_Ok.
  rewrite Hnd. cbn [inner_drop]. unfold inner_drop, drop_prefix. simpl. 
  eexists _, _. split; [|split; [|split; [|split; [|split; [|split; [|split]]]]]].
  - rewrite Hlk. replace (S (length (kl ++ kr)) - 1) with (length (kl ++ kr)) by lia.
    assert (delete (S (length cl)) cs = map nid (cl ++ TNode lid (k1 ++ sep :: k2) (ch1 ++ ch2) :: cr)) as ->.
    { unfold cs. rewrite !map_app. simpl.
      change (NInner lid :: NInner rid :: map nid cr) with ([NInner lid] ++ NInner rid :: map nid cr).
      rewrite app_assoc, delete_middle' by (rewrite app_length, map_length; simpl; lia).
      by rewrite <- app_assoc. }
    reflexivity.
  - done.
  - cbn [inners put_inner set_inners]. by rewrite !insert_length.
  - by rewrite insert_length.
  - intros HS. destruct (Hau HS) as (x1 & x2 & ->). rewrite !map_app. simpl.
    change (x1 :: x2 :: map aug_of cr) with ([x1] ++ x2 :: map (aug_of (A:=A)) cr).
    rewrite app_assoc, delete_middle' by (rewrite app_length, map_length; simpl; lia).
    rewrite <- app_assoc. simpl. rewrite insert_middle' by (by rewrite map_length).
    by rewrite (S1 HS), (S2 HS), map_app.
  - cbn [inners put_inner set_inners].
    match goal with |- node_rep _ ?is' _ _ _ /\ _ => destruct (children_frame is') as [G1 G2] end.
    { intros i Hi1 Hi2. by rewrite !list_lookup_insert_ne. }
    split; [|by apply Forall_app]. exists (aus1 ++ aus2). split_and!.
    + rewrite map_app. apply list_lookup_insert. by rewrite insert_length.
    + rewrite !app_length. lia.
    + intros HS. by rewrite (S1 HS), (S2 HS), map_app.
  - cbn [inners put_inner set_inners]. rewrite list_lookup_insert_ne by done. by apply list_lookup_insert.
  - intros i Hi1 Hi2. cbn [inners put_inner set_inners]. by rewrite !list_lookup_insert_ne.
Qed.

End Pair.
End RemoveInner.
