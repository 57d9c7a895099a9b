(** Removal, the leaf level: rotating and merging two neighbouring leaves. *)
From stdpp Require Import list sorting.
From Verif Require Import Base Slots BinSearch LeafNode InnerNode Store Tree Remove
  SlotLemmas NodeLemmas Spec Order Logical Descent InsertProof InvLemmas.

Lemma slot_mk_lt {T} cap (l : list T) i x : mk_slots cap l !! i = Some (Some x) -> i < length l.
Proof.
  intros H. destruct (decide (i < length l)); [done|]. exfalso.
  destruct (decide (i < cap)).
  - by rewrite mk_slots_lookup_None in H by lia.
  - unfold mk_slots in H. rewrite lookup_app_r in H by (rewrite map_length; lia).
    rewrite lookup_ge_None_2 in H; [done|]. rewrite repeat_length, map_length. lia.
Qed.

Section RemoveLeaf.
Context {K V A : Type} {KO : KeyOps K} {PF : Profile} {OM : OrdMode} {OI : OrdIf K} {AO : AugOps K V A}.
Notation tr := (tr K V).
Notation mark := (K * option V)%type.
Notation seg := (nat * list (K * V))%type.
Notation store := (store K V A).
Context (SYNC : Prop).

(** A rotation is chosen only if the neighbour can give an entry away. *)
Lemma choose_right (p n : option (leaf K V)) : choose_fix_action p n = Ok FxRotateRight ->
  exists l, p = Some l /\ leaf_able_to_lend l = true.
Proof.
  destruct p as [p|], n as [n|]; simpl; try done; repeat (case_match; try done); eauto.
Qed.
Lemma choose_left (p n : option (leaf K V)) : choose_fix_action p n = Ok FxRotateLeft ->
  exists l, n = Some l /\ leaf_able_to_lend l = true.
Proof.
  destruct p as [p|], n as [n|]; simpl; try done; repeat (case_match; try done); eauto.
Qed.

Lemma lrep_merge (ls ls' : list (option (leaf K V))) pre lid l rid r m post :
  lrep ls (pre ++ (lid, l) :: (rid, r) :: post) ->
  ls' = set_next_prev (<[lid := Some (mk_leaf m (last_id None pre) (hd_id post None))]> (<[rid := None]> ls)) post (Some lid) ->
  lrep ls' (pre ++ (lid, m) :: post).
Proof.
  intros [H1 H2 H3] ->. rewrite map_app in *. simpl in *.
  assert (lid < length ls) as Hlt by (eapply lookup_lt_Some, linked_lookup; done).
  apply linked_app in H1 as [L1 L2]. simpl in L1, L2. destruct L2 as (L2 & L3 & L4).
  assert (rid < length ls) as Hltr by (by eapply lookup_lt_Some).
  apply NoDup_app in H2 as (N1 & N2 & N3). apply NoDup_cons in N3 as [N4 N5]. apply NoDup_cons in N5 as [N6 N7].
  rewrite elem_of_cons in N4. apply Decidable.not_or in N4 as [N4 N4'].
  assert (forall i, i ∈ map fst pre -> i <> lid /\ i <> rid /\ i ∉ map fst post) as Hpre.
  { intros i Hi. pose proof (N2 i Hi) as X. rewrite !elem_of_cons in X. tauto. }
  assert (forall i, i ∈ map fst post -> i <> lid /\ i <> rid) as Hpost.
  { intros i Hi. split; intros ->; done. }
  split.
  - apply linked_app. simpl. split_and!.
    + eapply linked_frame; [done|]. intros i Hi. destruct (Hpre i Hi) as (X1 & X2 & X3).
      rewrite set_next_prev_ne by done. by rewrite !list_lookup_insert_ne.
    + rewrite set_next_prev_ne by done. rewrite list_lookup_insert; [done|]. by rewrite insert_length.
    + apply (set_next_prev_linked _ (Some rid)); [|done].
      eapply linked_frame; [done|]. intros i Hi. destruct (Hpost i Hi).
      by rewrite !list_lookup_insert_ne.
  - rewrite map_app. simpl. apply NoDup_app. split_and!; [done| |].
    + intros i Hi. destruct (Hpre i Hi) as (X1 & X2 & X3). rewrite elem_of_cons. tauto.
    + by apply NoDup_cons.
  - intros i lf Hi. rewrite map_app. simpl. rewrite elem_of_app, !elem_of_cons.
    destruct (decide (i = lid)) as [->|X2]; [by right; left|].
    destruct (decide (i ∈ map fst post)) as [X3|X3]; [by right; right|].
    rewrite set_next_prev_ne, list_lookup_insert_ne in Hi by done.
    destruct (decide (i = rid)) as [->|X4]; [by rewrite list_lookup_insert in Hi|].
    rewrite list_lookup_insert_ne in Hi by done. apply H3 in Hi.
    rewrite elem_of_app, !elem_of_cons in Hi. tauto.
Qed.

Lemma leaf_lend_mk (kvs : list (K * V)) p n :
  leaf_able_to_lend (mk_leaf kvs p n) = bool_decide (16 < length kvs).
Proof. done. Qed.

Lemma leaf_aug_mk kvs p n : length kvs <= 64 ->
  leaf_aug (mk_leaf kvs p n) = Ok (from_leaf (A:=A) (keysof kvs) (valsof kvs)).
Proof.
  intros H. unfold leaf_aug. rewrite leaf_keys_mk, obind_Ok, leaf_values_mk by done. done.
Qed.

(** [aus] belongs to the children [cl], two others and [cr]. *)
Definition sync_pair (cl cr : list tr) (aus : list A) : Prop :=
  SYNC -> exists a1 a2, aus = map aug_of cl ++ a1 :: a2 :: map aug_of cr.

Lemma aug_pair_weak (cl cr : list tr) c1' c2' (aus : list A) a1 a2 : sync_pair cl cr aus ->
  (SYNC -> a1 = aug_of c1') -> (SYNC -> a2 = aug_of c2') ->
  SYNC -> <[S (length cl) := a2]> (<[length cl := a1]> aus) = map aug_of (cl ++ c1' :: c2' :: cr).
Proof.
  intros H H1 H2 HS. destruct (H HS) as (x1 & x2 & ->). rewrite (H1 HS), (H2 HS). rewrite !map_app. simpl.
  rewrite insert_middle' by (by rewrite map_length).
  change (aug_of c1' :: x2 :: map aug_of cr) with ([aug_of c1'] ++ x2 :: map (aug_of (A:=A)) cr).
  rewrite app_assoc, insert_middle' by (rewrite app_length, map_length; simpl; lia).
  by rewrite <- app_assoc.
Qed.

Lemma aug_pair (cl cr : list tr) c1 c2 c1' c2' (aus : list A) a1 a2 :
  (SYNC -> aus = map aug_of (cl ++ c1 :: c2 :: cr)) ->
  (SYNC -> a1 = aug_of c1') -> (SYNC -> a2 = aug_of c2') ->
  SYNC -> <[S (length cl) := a2]> (<[length cl := a1]> aus) = map aug_of (cl ++ c1' :: c2' :: cr).
Proof.
  intros H. apply aug_pair_weak. intros HS. rewrite (H HS), map_app. by eexists _, _.
Qed.

Lemma aug_merge (cl cr : list tr) c1 c2 c1' (aus : list A) a1 :
  (SYNC -> aus = map aug_of (cl ++ c1 :: c2 :: cr)) ->
  (SYNC -> a1 = aug_of c1') ->
  SYNC -> delete (S (length cl)) (<[length cl := a1]> aus) = map aug_of (cl ++ c1' :: cr).
Proof.
  intros H H1 HS. rewrite (H HS), (H1 HS). rewrite !map_app. simpl.
  rewrite insert_middle' by (by rewrite map_length).
  change (aug_of c1' :: aug_of c2 :: map aug_of cr) with ([aug_of c1'] ++ aug_of (A:=A) c2 :: map aug_of cr).
  rewrite app_assoc, delete_middle' by (rewrite app_length, map_length; simpl; lia).
  by rewrite <- app_assoc.
Qed.

Lemma pair_lookup {T} (a b : list T) x y :
  (a ++ x :: y :: b) !! length a = Some x /\ (a ++ x :: y :: b) !! S (length a) = Some y.
Proof.
  split; [by apply lookup_middle'|].
  change (x :: y :: b) with ([x] ++ y :: b). rewrite app_assoc. apply lookup_middle'.
  rewrite app_length. simpl. lia.
Qed.

Lemma lrep_lookup_pair (ls : list (option (leaf K V))) pre lid l rid r post :
  lrep ls (pre ++ (lid, l) :: (rid, r) :: post) ->
  ls !! lid = Some (Some (mk_leaf l (last_id None pre) (Some rid))) /\
  ls !! rid = Some (Some (mk_leaf r (Some lid) (hd_id post None))) /\ lid <> rid.
Proof.
  intros H. split_and!.
  - by apply lrep_lookup in H.
  - change ((lid, l) :: (rid, r) :: post) with ([(lid, l)] ++ (rid, r) :: post) in H.
    rewrite app_assoc in H. apply lrep_lookup in H. by rewrite last_id_app in H.
  - destruct H as [_ H _]. rewrite map_app in H. simpl in H. apply NoDup_app in H as (_ & _ & H).
    apply NoDup_cons in H as [H _]. intros ->. apply H. constructor.
Qed.

Lemma lrep_update_pair (ls : list (option (leaf K V))) pre lid l rid r post l' r' :
  lrep ls (pre ++ (lid, l) :: (rid, r) :: post) ->
  lrep (<[rid := Some (mk_leaf r' (Some lid) (hd_id post None))]>
         (<[lid := Some (mk_leaf l' (last_id None pre) (Some rid))]> ls))
    (pre ++ (lid, l') :: (rid, r') :: post).
Proof.
  intros H. apply (lrep_update _ _ _ _ l') in H. simpl in H.
  change ((lid, l') :: (rid, r) :: post) with ([(lid, l')] ++ (rid, r) :: post) in H.
  rewrite app_assoc in H. apply (lrep_update _ _ _ _ r') in H. rewrite last_id_app in H. simpl in H.
  by rewrite <- app_assoc in H.
Qed.

Section Pair.
Context (s : store) (kl kr : list K) (sep : K) (cl cr : list tr) (lid rid : nat)
  (l r : list (K * V)) (aus : list A) (pre post : list seg) (di : nat) (kv : K * V).
Context (L1 : length kl = length cl) (La : length aus = length cl + S (S (length cr))).
Context (Lr : lrep (leaves s) (pre ++ (lid, l) :: (rid, r) :: post)).
Context (Hl64 : length l <= 64) (Hr64 : length r <= 64).
Context (Hau : SYNC -> aus = map aug_of (cl ++ TLeaf lid l :: TLeaf rid r :: cr)).

Let cs := map nid (cl ++ TLeaf lid l :: TLeaf rid r :: cr).
Let node := mk_inner (kl ++ sep :: kr) cs aus.

Local Lemma cs_lookup : cs !! length cl = Some (NLeaf lid) /\ cs !! (length cl + 1) = Some (NLeaf rid).
Proof.
  unfold cs. rewrite map_app. simpl. rewrite Nat.add_1_r.
  destruct (pair_lookup (map nid cl) (map nid cr) (NLeaf lid) (NLeaf rid)) as [H1 H2].
  by rewrite map_length in H1, H2.
Qed.

Lemma rotate_right_leaf_ok l0 x : l = l0 ++ [x] -> 16 < length l -> r !! di = Some kv ->
  exists s' aus', rotate_right_for_leaf_node s node (length cl) di =
      Ok (kv, s', mk_inner (kl ++ x.1 :: kr) cs aus') /\
    inners s' = inners s /\ length aus' = length aus /\
    (SYNC -> aus' = map aug_of (cl ++ TLeaf lid l0 :: TLeaf rid (x :: delete di r) :: cr)) /\
    lrep (leaves s') (pre ++ (lid, l0) :: (rid, x :: delete di r) :: post).
Proof.
  intros El Hl Hdi. destruct cs_lookup as [C1 C2].
  destruct (lrep_lookup_pair _ _ _ _ _ _ _ Lr) as (E1 & E2 & Hne).
  unfold rotate_right_for_leaf_node, node.
  rewrite (inner_child_id_mk _ _ _ _ _ C1), obind_Ok. cbn [leaf_id_unchecked]. rewrite obind_Ok.
  rewrite (inner_child_id_mk _ _ _ _ _ C2), obind_Ok. cbn [leaf_id_unchecked]. rewrite obind_Ok.
  unfold get_leaf at 1. rewrite E1, obind_Ok.
  rewrite leaf_lend_mk, bool_decide_true by done.
  rewrite El in Hl64, Hl |- *. rewrite leaf_pop_mk by done. rewrite obind_Ok.
  rewrite app_length in Hl64, Hl. simpl in Hl64, Hl.
  rewrite leaf_aug_mk by lia. rewrite obind_Ok.
  rewrite inner_set_augmentation_mk by lia. rewrite obind_Ok.
  unfold get_leaf at 1. unfold put_leaf at 1. cbn [leaves set_leaves].
  rewrite list_lookup_insert_ne by done. rewrite E2, obind_Ok.
  rewrite (leaf_delete_with_push_front_mk _ _ _ _ kv) by done. rewrite obind_Ok.
  assert (length (x :: delete di r) = length r) as Hlr.
  { pose proof (lookup_lt_Some _ _ _ Hdi). simpl. rewrite length_delete by eauto. lia. }
  rewrite leaf_aug_mk by lia. rewrite obind_Ok.
  rewrite inner_set_augmentation_mk by (rewrite insert_length; lia). rewrite obind_Ok.
  rewrite (inner_set_key_mk _ _ _ _ sep) by (by apply lookup_middle'). rewrite obind_Ok.
  rewrite insert_middle' by done.
  eexists _, _. split_and!; [done|done|by rewrite !insert_length| |].
  - rewrite Nat.add_1_r. by eapply aug_pair.
  - cbn [leaves put_leaf set_leaves cache_leaf]. by eapply lrep_update_pair.
Qed.

Lemma rotate_left_leaf_ok x y r0 : r = x :: y :: r0 -> 16 < length r -> l !! di = Some kv ->
  exists s' aus', rotate_left_for_leaf_node s node (length cl) di =
      Ok (kv, s', mk_inner (kl ++ y.1 :: kr) cs aus') /\
    inners s' = inners s /\ length aus' = length aus /\
    (SYNC -> aus' = map aug_of (cl ++ TLeaf lid (delete di l ++ [x]) :: TLeaf rid (y :: r0) :: cr)) /\
    lrep (leaves s') (pre ++ (lid, delete di l ++ [x]) :: (rid, y :: r0) :: post).
Proof.
  intros Er Hr Hdi. destruct cs_lookup as [C1 C2].
  destruct (lrep_lookup_pair _ _ _ _ _ _ _ Lr) as (E1 & E2 & Hne).
  unfold rotate_left_for_leaf_node, node.
  rewrite (inner_child_id_mk _ _ _ _ _ C1), obind_Ok. cbn [leaf_id_unchecked]. rewrite obind_Ok.
  rewrite (inner_child_id_mk _ _ _ _ _ C2), obind_Ok. cbn [leaf_id_unchecked]. rewrite obind_Ok.
  unfold get_leaf at 1. rewrite E2, obind_Ok.
  rewrite leaf_lend_mk, bool_decide_true by done.
  rewrite Er in Hr64, Hr |- *. rewrite leaf_pop_front_mk by done. rewrite obind_Ok.
  rewrite leaf_aug_mk by (cbn [length] in *; lia). rewrite obind_Ok.
  rewrite inner_set_augmentation_mk by lia. rewrite obind_Ok.
  rewrite (leaf_data_at_mk _ _ _ _ y) by done. rewrite obind_Ok.
  destruct y as [yk yv].
  unfold get_leaf at 1. unfold put_leaf at 1. cbn [leaves set_leaves].
  rewrite list_lookup_insert_ne by done. rewrite E1, obind_Ok.
  rewrite (leaf_delete_with_push_mk _ _ _ _ kv) by done. rewrite obind_Ok.
  assert (length (delete di l ++ [x]) = length l) as Hll.
  { pose proof (lookup_lt_Some _ _ _ Hdi). rewrite app_length, length_delete by eauto. simpl. lia. }
  rewrite leaf_aug_mk by lia. rewrite obind_Ok.
  rewrite inner_set_augmentation_mk by (rewrite insert_length; lia). rewrite obind_Ok.
  rewrite (inner_set_key_mk _ _ _ _ sep) by (by apply lookup_middle'). rewrite obind_Ok.
  rewrite insert_middle' by done.
  eexists _, _. split_and!; [done|done|by rewrite !insert_length| |].
  - rewrite Nat.add_1_r, list_insert_commute by lia. by eapply aug_pair.
  - cbn [leaves put_leaf set_leaves cache_leaf]. rewrite list_insert_commute by done.
    by eapply lrep_update_pair.
Qed.

(** Fixing the link of the leaf behind a merged pair. *)
Local Lemma fix_next_prev_ok m :
  exists s', fix_next_prev (put_leaf (set_leaves s (<[rid := None]> (leaves s))) lid (mk_leaf m (last_id None pre) (hd_id post None)))
      (mk_leaf m (last_id None pre) (hd_id post None)) lid = Ok s' /\
    inners s' = inners s /\
    lrep (leaves s') (pre ++ (lid, m) :: post).
Proof.
  unfold fix_next_prev. cbn [l_next mk_leaf]. destruct post as [|[nx nkvs] post'] eqn:Ep; cbn [hd_id fst].
  - eexists. split_and!; [done|done|]. cbn [leaves put_leaf set_leaves]. by eapply lrep_merge.
  - assert (leaves s !! nx = Some (Some (mk_leaf nkvs (Some rid) (hd_id post' None))) /\ nx <> lid /\ nx <> rid) as (E & N1 & N2).
    { pose proof Lr as Lr'.
      change ((lid, l) :: (rid, r) :: (nx, nkvs) :: post') with ([(lid, l); (rid, r)] ++ (nx, nkvs) :: post') in Lr'.
      rewrite app_assoc in Lr'. pose proof (lrep_lookup _ _ _ _ _ Lr') as E. rewrite last_id_app in E.
      split; [done|]. destruct Lr as [_ N _]. rewrite map_app in N. simpl in N.
      apply NoDup_app in N as (_ & _ & N). apply NoDup_cons in N as [N1 N]. apply NoDup_cons in N as [N2 N].
      rewrite !elem_of_cons in N1, N2. split; intros ->; [apply N1; by right; left|apply N2; by left]. }
    unfold get_leaf. cbn [leaves put_leaf set_leaves]. rewrite !list_lookup_insert_ne by done.
    rewrite E, obind_Ok, leaf_set_prev_mk.
    eexists. split_and!; [done|done|]. cbn [leaves put_leaf set_leaves]. by eapply lrep_merge.
Qed.

Definition del_res (n : nat) : delete_result K V :=
  if decide (MIN_N <= n) then DrDone kv else DrInnerUnderSize kv.

Lemma merge_left_leaf_ok (L2 : length kr = length cr) (Hk64 : length (kl ++ sep :: kr) <= 64) :
  length l + length r <= 65 -> r !! di = Some kv ->
  exists s' aus', merge_leaf_node_left s node (length cl) di =
      Ok (del_res (length (kl ++ kr)), s', mk_inner (kl ++ kr) (map nid (cl ++ TLeaf lid (l ++ delete di r) :: cr)) aus') /\
    inners s' = inners s /\ length aus' = S (length (kl ++ kr)) /\
    (SYNC -> aus' = map aug_of (cl ++ TLeaf lid (l ++ delete di r) :: cr)) /\
    lrep (leaves s') (pre ++ (lid, l ++ delete di r) :: post).
Proof.
  intros Hsum Hdi. destruct cs_lookup as [C1 C2].
  destruct (lrep_lookup_pair _ _ _ _ _ _ _ Lr) as (E1 & E2 & Hne).
  pose proof (lookup_lt_Some _ _ _ Hdi) as Hdlt.
  unfold merge_leaf_node_left, node.
  rewrite (inner_child_id_mk _ _ _ _ _ C1), obind_Ok. cbn [leaf_id_unchecked]. rewrite obind_Ok.
  rewrite (inner_child_id_mk _ _ _ _ _ C2), obind_Ok. cbn [leaf_id_unchecked]. rewrite obind_Ok.
  unfold take_leaf. rewrite E2, obind_Ok.
  unfold get_leaf at 1. cbn [leaves set_leaves]. rewrite list_lookup_insert_ne by done. rewrite E1, obind_Ok.
  destruct (leaf_merge_right_delete_first_mk l r (last_id None pre) (Some rid) (Some lid) (hd_id post None) di kv)
    as (rr & Em & Hrr); [done|done|done|]. rewrite Em, obind_Ok.
  assert (length (l ++ delete di r) <= 64) as Hm by (rewrite app_length, length_delete by eauto; lia).
  rewrite leaf_aug_mk by done. rewrite obind_Ok.
  rewrite inner_set_augmentation_mk by lia. rewrite obind_Ok.
  destruct (fix_next_prev_ok (l ++ delete di r)) as (s' & Ef & His & Hlr). rewrite Ef, obind_Ok.
  assert (length (kl ++ sep :: kr) = S (length (kl ++ kr))) as Hlk by (rewrite !app_length; simpl; lia).
  rewrite (inner_remove_slot_with_right_mk _ _ _ _ sep); [| |by apply lookup_middle'].
  2:{ split_and!; [done| |].
      - unfold cs. rewrite map_length, !app_length. simpl. lia.
      - rewrite insert_length, !app_length. simpl. lia. }
  rewrite obind_Ok. rewrite delete_middle' by done. rewrite Hrr, obind_Ok.
  eexists _, _. split_and!.
  - unfold del_res. rewrite Hlk. replace (S (length (kl ++ kr)) - 1) with (length (kl ++ kr)) by lia.
    assert (delete (S (length cl)) cs = map nid (cl ++ TLeaf lid (l ++ delete di r) :: cr)) as ->.
    { unfold cs. rewrite !map_app. simpl.
      change (NLeaf lid :: NLeaf rid :: map nid cr) with ([NLeaf lid] ++ NLeaf rid :: map nid cr).
      rewrite app_assoc, delete_middle' by (rewrite app_length, map_length; simpl; lia).
      by rewrite <- app_assoc. }
    destruct (decide _); done.
  - done.
  - rewrite length_delete, insert_length; [rewrite app_length; lia|].
    apply lookup_lt_is_Some. rewrite insert_length. lia.
  - by eapply aug_merge.
  - done.
Qed.

Lemma merge_right_leaf_ok (L2 : length kr = length cr) (Hk64 : length (kl ++ sep :: kr) <= 64) :
  length l + length r <= 65 -> l !! di = Some kv ->
  exists s' aus', merge_leaf_node_with_right s node (length cl) di =
      Ok (del_res (length (kl ++ kr)), s', mk_inner (kl ++ kr) (map nid (cl ++ TLeaf lid (delete di l ++ r) :: cr)) aus') /\
    inners s' = inners s /\ length aus' = S (length (kl ++ kr)) /\
    (SYNC -> aus' = map aug_of (cl ++ TLeaf lid (delete di l ++ r) :: cr)) /\
    lrep (leaves s') (pre ++ (lid, delete di l ++ r) :: post).
Proof.
  intros Hsum Hdi. destruct cs_lookup as [C1 C2].
  destruct (lrep_lookup_pair _ _ _ _ _ _ _ Lr) as (E1 & E2 & Hne).
  pose proof (lookup_lt_Some _ _ _ Hdi) as Hdlt.
  unfold merge_leaf_node_with_right, node.
  rewrite (inner_child_id_mk _ _ _ _ _ C1), obind_Ok. cbn [leaf_id_unchecked]. rewrite obind_Ok.
  rewrite (inner_child_id_mk _ _ _ _ _ C2), obind_Ok. cbn [leaf_id_unchecked]. rewrite obind_Ok.
  unfold take_leaf. rewrite E2, obind_Ok.
  unfold get_leaf at 1. cbn [leaves set_leaves]. rewrite list_lookup_insert_ne by done. rewrite E1, obind_Ok.
  rewrite (leaf_delete_at_mk _ _ _ _ kv) by done. rewrite obind_Ok.
  assert (length (delete di l ++ r) <= 64) as Hm by (rewrite app_length, length_delete by eauto; lia).
  destruct (leaf_merge_right_mk (delete di l) r (last_id None pre) (Some rid) (Some lid) (hd_id post None))
    as (rr & Em & Hrr); [rewrite app_length in Hm; done|]. rewrite Em, obind_Ok.
  rewrite leaf_aug_mk by done. rewrite obind_Ok.
  rewrite inner_set_augmentation_mk by lia. rewrite obind_Ok.
  destruct (fix_next_prev_ok (delete di l ++ r)) as (s' & Ef & His & Hlr). rewrite Ef, obind_Ok.
  assert (length (kl ++ sep :: kr) = S (length (kl ++ kr))) as Hlk by (rewrite !app_length; simpl; lia).
  rewrite (inner_remove_slot_with_right_mk _ _ _ _ sep); [| |by apply lookup_middle'].
  2:{ split_and!; [done| |].
      - unfold cs. rewrite map_length, !app_length. simpl. lia.
      - rewrite insert_length, !app_length. simpl. lia. }
  rewrite obind_Ok. rewrite delete_middle' by done. rewrite Hrr, obind_Ok.
  eexists _, _. split_and!.
  - unfold del_res. rewrite Hlk. replace (S (length (kl ++ kr)) - 1) with (length (kl ++ kr)) by lia.
    assert (delete (S (length cl)) cs = map nid (cl ++ TLeaf lid (delete di l ++ r) :: cr)) as ->.
    { unfold cs. rewrite !map_app. simpl.
      change (NLeaf lid :: NLeaf rid :: map nid cr) with ([NLeaf lid] ++ NLeaf rid :: map nid cr).
      rewrite app_assoc, delete_middle' by (rewrite app_length, map_length; simpl; lia).
      by rewrite <- app_assoc. }
    destruct (decide _); done.
  - done.
  - rewrite length_delete, insert_length; [rewrite app_length; lia|].
    apply lookup_lt_is_Some. rewrite insert_length. lia.
  - by eapply aug_merge.
  - done.
Qed.

End Pair.

(** ** Marks of two edited leaves *)
Lemma trav_node2 id kl sep kr (cl cr : list tr) c1 c2 :
  length kl = length cl -> length kr = length cr ->
  trav (TNode id (kl ++ sep :: kr) (cl ++ c1 :: c2 :: cr)) =
    zl cl kl ++ trav c1 ++ (sep, None) :: trav c2 ++ zr kr cr.
Proof. intros H1 H2. rewrite trav_node by (simpl; lia). by rewrite zr_cons. Qed.

Lemma sublist_emarks (l r m : list (K * V)) sep : m `sublist_of` l ++ r ->
  map emark m `sublist_of` map emark l ++ (sep, None) :: map emark r.
Proof.
  intros H. transitivity (map emark (l ++ r)).
  - clear - H. induction H; simpl; by constructor.
  - rewrite map_app. apply sublist_app; [done|]. by constructor.
Qed.

Lemma sorted_pair_merge (X Y : list mark) l sep r m : m `sublist_of` l ++ r ->
  sorted_if (X ++ (map emark l ++ (sep, None) :: map emark r) ++ Y) -> sorted_if (X ++ map emark m ++ Y).
Proof.
  intros H. apply sorted_if_sublist. apply sublist_app; [done|]. apply sublist_app; [|done].
  by apply sublist_emarks.
Qed.

Lemma sorted_pair_rotate (X Y : list mark) l sep r l' y r' : l' <> [] -> l' ++ y :: r' `sublist_of` l ++ r ->
  sorted_if (X ++ (map emark l ++ (sep, None) :: map emark r) ++ Y) ->
  sorted_if (X ++ (map emark l' ++ (y.1, None) :: map emark (y :: r')) ++ Y).
Proof.
  intros Hn Hsub H HO. destruct y as [k0 v0]. pose proof (ord_if HO). apply sortedm_add_sep; [done|].
  revert HO. by eapply sorted_pair_merge.
Qed.

End RemoveLeaf.
