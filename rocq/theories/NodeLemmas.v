(** Canonical nodes and what the node operations of LeafNode.v and InnerNode.v do
    on them. *)
From stdpp Require Import list.
From Verif Require Import Base Slots BinSearch LeafNode InnerNode SlotLemmas.

Lemma fill_slots_mk {T} cap (xs l : list T) k : length (l ++ xs) <= cap -> k = length l ->
  fill_slots (mk_slots cap l) k xs = Ok (mk_slots cap (l ++ xs)).
Proof.
  revert l k. induction xs as [|x xs IH]; intros l k H ->; simpl; [by rewrite app_nil_r|].
  rewrite app_length in H. simpl in H.
  rewrite mk_slots_length by lia. rewrite decide_True by lia.
  rewrite slot_put_mk, obind_Ok by lia.
  rewrite (IH (l ++ [x])); [|rewrite !app_length; simpl; lia|rewrite app_length; simpl; lia].
  by rewrite <- app_assoc.
Qed.

Section Leaf.
Context {K V : Type} {PF : Profile}.
Implicit Types (kvs : list (K * V)).

Definition keysof kvs : list K := map fst kvs.
Definition valsof kvs : list V := map snd kvs.

(** A leaf whose first [length kvs] slots hold [kvs] and whose other slots are
    uninitialised. *)
Definition mk_leaf kvs (p n : option nat) : leaf K V :=
  mkLeaf (length kvs) (mk_slots LEAF_N (keysof kvs)) (mk_slots LEAF_N (valsof kvs)) p n.

Lemma keysof_length kvs : length (keysof kvs) = length kvs.
Proof. apply map_length. Qed.
Lemma valsof_length kvs : length (valsof kvs) = length kvs.
Proof. apply map_length. Qed.
Lemma keysof_app a b : keysof (a ++ b) = keysof a ++ keysof b.
Proof. apply map_app. Qed.
Lemma valsof_app a b : valsof (a ++ b) = valsof a ++ valsof b.
Proof. apply map_app. Qed.
Lemma keysof_lookup kvs i k v : kvs !! i = Some (k, v) -> keysof kvs !! i = Some k.
Proof. intros H. unfold keysof. change (map ?f ?l) with (f <$> l). by rewrite list_lookup_fmap, H. Qed.
Lemma valsof_lookup kvs i k v : kvs !! i = Some (k, v) -> valsof kvs !! i = Some v.
Proof. intros H. unfold valsof. change (map ?f ?l) with (f <$> l). by rewrite list_lookup_fmap, H. Qed.
Lemma keysof_linsert i k v kvs : keysof (linsert i (k, v) kvs) = linsert i k (keysof kvs).
Proof. apply linsert_map. Qed.
Lemma valsof_linsert i k v kvs : valsof (linsert i (k, v) kvs) = linsert i v (valsof kvs).
Proof. apply linsert_map. Qed.
Lemma keysof_delete i kvs : keysof (delete i kvs) = delete i (keysof kvs).
Proof. unfold keysof. change (map ?f ?l) with (f <$> l). apply list_fmap_delete. Qed.
Lemma valsof_delete i kvs : valsof (delete i kvs) = delete i (valsof kvs).
Proof. unfold valsof. change (map ?f ?l) with (f <$> l). apply list_fmap_delete. Qed.

Lemma leaf_new_mk : leaf_new = mk_leaf [] None None.
Proof. unfold leaf_new, mk_leaf. simpl. by rewrite !slots_empty_mk. Qed.

Section Fits.
Context (kvs : list (K * V)) (p n : option nat) (Hfit : length kvs <= LEAF_N).

Lemma leaf_keys_mk : leaf_keys (mk_leaf kvs p n) = Ok (keysof kvs).
Proof. unfold leaf_keys. simpl. apply slots_prefix_mk; by rewrite keysof_length. Qed.
Lemma leaf_values_mk : leaf_values (mk_leaf kvs p n) = Ok (valsof kvs).
Proof. unfold leaf_values. simpl. apply slots_prefix_mk; by rewrite valsof_length. Qed.
Lemma leaf_locate_slot_mk q : leaf_locate_slot (mk_leaf kvs p n) q = binary_search q (keysof kvs).
Proof. unfold leaf_locate_slot. by rewrite leaf_keys_mk. Qed.
End Fits.

Lemma leaf_data_at_mk kvs p n i kv : kvs !! i = Some kv ->
  leaf_data_at (mk_leaf kvs p n) i = Ok kv.
Proof.
  destruct kv as [k v]. intros H. unfold leaf_data_at. simpl.
  rewrite (slot_get_mk _ _ _ k) by (by eapply keysof_lookup). simpl.
  by rewrite (slot_get_mk _ _ _ v) by (by eapply valsof_lookup).
Qed.

Lemma leaf_data_at_mk_UB kvs p n i : length kvs <= i ->
  leaf_data_at (mk_leaf kvs p n) i = UB.
Proof.
  intros H. unfold leaf_data_at. simpl. unfold slot_get.
  destruct (decide (i < LEAF_N)).
  - rewrite mk_slots_lookup_None; [done|by rewrite keysof_length|done].
  - rewrite lookup_ge_None_2; [done|]. unfold mk_slots.
    rewrite app_length, repeat_length, map_length, keysof_length. lia.
Qed.

Lemma leaf_try_data_at_mk kvs p n i :
  leaf_try_data_at (mk_leaf kvs p n) i = Ok (kvs !! i).
Proof.
  unfold leaf_try_data_at. simpl. destruct (decide _) as [H|H].
  - by rewrite lookup_ge_None_2.
  - destruct (lookup_lt_is_Some_2 kvs i ltac:(lia)) as [kv E].
    rewrite (leaf_data_at_mk _ _ _ _ kv), E by done. done.
Qed.

Lemma leaf_value_at_mut_mk kvs p n i k v f : kvs !! i = Some (k, v) ->
  leaf_value_at_mut (mk_leaf kvs p n) i f = Ok (v, mk_leaf (<[i := (k, f v)]> kvs) p n).
Proof.
  intros H. unfold leaf_value_at_mut. simpl.
  rewrite (slot_get_mk _ _ _ v) by (by eapply valsof_lookup). simpl.
  unfold mk_leaf. rewrite insert_length.
  rewrite mk_slots_insert by (rewrite valsof_length; by apply lookup_lt_Some in H).
  do 4 f_equal.
  - unfold keysof. change (map ?f ?l) with (f <$> l). rewrite list_fmap_insert. simpl.
    rewrite list_insert_id; [done|]. by rewrite list_lookup_fmap, H.
  - unfold valsof. change (map ?f ?l) with (f <$> l). rewrite list_fmap_insert. done.
Qed.

Lemma leaf_set_data_mk kvs p n data todo i :
  i = length kvs -> length kvs + todo <= LEAF_N ->
  leaf_set_data_loop todo i (mk_leaf kvs p n) data =
    Ok (mk_leaf (kvs ++ take todo data) p n, drop todo data).
Proof.
  revert kvs i data. induction todo as [|todo IH]; intros kvs i data -> H; simpl.
  { by rewrite take_0, app_nil_r. }
  destruct data as [|[k v] data]; simpl; [by rewrite app_nil_r|].
  rewrite slot_put_mk by (rewrite keysof_length; lia). simpl.
  rewrite slot_put_mk by (rewrite valsof_length; lia). simpl.
  specialize (IH (kvs ++ [(k, v)]) (S (length kvs)) data).
  unfold mk_leaf in *. rewrite !app_length in IH. simpl in IH.
  rewrite keysof_app, valsof_app in IH. simpl in IH.
  rewrite Nat.add_1_r in IH. rewrite IH by lia.
  rewrite <- !app_assoc, app_length. simpl. do 3 f_equal. lia.
Qed.

Lemma leaf_delete_at_mk kvs p n i kv : kvs !! i = Some kv -> length kvs <= LEAF_N ->
  leaf_delete_at (mk_leaf kvs p n) i = Ok (kv, mk_leaf (delete i kvs) p n).
Proof.
  destruct kv as [k v]. intros H Hf. unfold leaf_delete_at. simpl.
  rewrite (slice_remove_mk _ _ _ _ k); [|by eapply keysof_lookup|by rewrite keysof_length..].
  simpl. rewrite (slice_remove_mk _ _ _ _ v); [|by eapply valsof_lookup|by rewrite valsof_length..].
  simpl. pose proof (lookup_lt_Some _ _ _ H) as Hl.
  destruct (length kvs) as [|m] eqn:E; [lia|]. simpl.
  unfold mk_leaf. rewrite keysof_delete, valsof_delete.
  rewrite length_delete by eauto. rewrite E. simpl. by rewrite Nat.sub_0_r.
Qed.

Lemma leaf_pop_mk kvs p n kv : length (kvs ++ [kv]) <= LEAF_N -> 16 < length (kvs ++ [kv]) ->
  leaf_pop (mk_leaf (kvs ++ [kv]) p n) = Ok (kv, mk_leaf kvs p n).
Proof.
  intros H1 H2. unfold leaf_pop, leaf_able_to_lend, leaf_minimum_size. simpl.
  rewrite bool_decide_true by done. rewrite app_length in *. simpl in *.
  rewrite Nat.add_1_r. simpl.
  rewrite (leaf_delete_at_mk _ _ _ _ kv); [|by apply list_lookup_middle|rewrite app_length; done].
  by rewrite delete_middle, app_nil_r.
Qed.

Lemma leaf_pop_front_mk kvs p n kv : length (kv :: kvs) <= LEAF_N -> 16 < length (kv :: kvs) ->
  leaf_pop_front (mk_leaf (kv :: kvs) p n) = Ok (kv, mk_leaf kvs p n).
Proof.
  intros H1 H2. unfold leaf_pop_front, leaf_able_to_lend, leaf_minimum_size. simpl.
  rewrite bool_decide_true by done.
  by rewrite (leaf_delete_at_mk _ _ _ _ kv).
Qed.

Lemma leaf_delete_with_push_mk kvs p n i kv item :
  kvs !! i = Some kv -> length kvs <= LEAF_N ->
  leaf_delete_with_push (mk_leaf kvs p n) i item =
    Ok (kv, mk_leaf (delete i kvs ++ [item]) p n).
Proof.
  destruct kv as [k v], item as [ik iv]. intros H Hf. unfold leaf_delete_with_push. simpl.
  rewrite (slice_remove_mk _ _ _ _ k); [|by eapply keysof_lookup|by rewrite keysof_length..].
  simpl. rewrite (slice_remove_mk _ _ _ _ v); [|by eapply valsof_lookup|by rewrite valsof_length..].
  simpl. pose proof (lookup_lt_Some _ _ _ H) as Hl.
  assert (length (delete i kvs) = length kvs - 1) as Hd by (by apply length_delete; eauto).
  destruct (length kvs) as [|m] eqn:E; [lia|]. simpl.
  rewrite <- keysof_delete, <- valsof_delete.
  rewrite slot_put_mk by (rewrite keysof_length; lia). simpl.
  rewrite slot_put_mk by (rewrite valsof_length; lia). simpl.
  unfold mk_leaf. rewrite keysof_app, valsof_app, app_length. simpl.
  do 3 f_equal. lia.
Qed.

Lemma one_slot {T} (a b : list T) x n m : m = S (length a) -> n = length a ->
  drop n (take m (a ++ x :: b)) = [x].
Proof.
  intros -> ->. rewrite take_app_ge by lia. rewrite drop_app' by done.
  replace (S (length a) - length a) with 1 by lia. done.
Qed.

Lemma slot_take_then_insert_front {T} cap (l : list T) i x y :
  l !! i = Some x -> length l <= cap ->
  exists s, slot_take (mk_slots cap l) i = Ok (x, s) /\
    slice_insert s (i + 1) 0 y = Ok (mk_slots cap (y :: delete i l)).
Proof.
  intros H Hc. unfold slot_take. rewrite (mk_slots_lookup _ _ _ _ H). eexists; split; [done|].
  destruct (split_at_elem _ _ _ H) as (a & b & -> & Hl).
  rewrite delete_middle' by done. rewrite app_length in *. simpl in *.
  assert (mk_slots cap (a ++ x :: b) = map Some a ++ Some x :: map Some b ++
    repeat None (cap - (length a + S (length b)))) as ->.
  { unfold mk_slots. rewrite map_app, <- app_assoc, app_length. done. }
  rewrite insert_middle' by (by rewrite map_length).
  unfold slice_insert. rewrite app_length. simpl. rewrite app_length, !map_length, repeat_length.
  rewrite decide_True by lia. rewrite decide_True by lia.
  rewrite if_vacant_true.
  2:{ rewrite one_slot; [done|rewrite map_length; lia|rewrite map_length; lia]. }
  f_equal. simpl.
  rewrite drop_0. rewrite take_app' by (rewrite map_length; lia).
  rewrite drop_S_middle by (rewrite map_length; lia).
  unfold mk_slots. simpl. f_equal. rewrite map_app, <- app_assoc, app_length. do 2 f_equal.
  f_equal. lia.
Qed.

Lemma leaf_delete_with_push_front_mk kvs p n i kv item :
  kvs !! i = Some kv -> length kvs <= LEAF_N ->
  leaf_delete_with_push_front (mk_leaf kvs p n) i item =
    Ok (kv, mk_leaf (item :: delete i kvs) p n).
Proof.
  destruct kv as [k v], item as [ik iv]. intros H Hf. unfold leaf_delete_with_push_front. simpl.
  pose proof (lookup_lt_Some _ _ _ H) as Hl.
  rewrite !mk_slots_length by (by rewrite ?keysof_length, ?valsof_length).
  rewrite decide_True by lia.
  destruct (slot_take_then_insert_front LEAF_N (keysof kvs) i k ik) as (s1 & -> & E1);
    [by eapply keysof_lookup|by rewrite keysof_length|]. simpl.
  destruct (slot_take_then_insert_front LEAF_N (valsof kvs) i v iv) as (s2 & -> & E2);
    [by eapply valsof_lookup|by rewrite valsof_length|]. simpl.
  rewrite E1. simpl. rewrite E2. simpl.
  unfold mk_leaf. simpl. rewrite keysof_delete, valsof_delete.
  rewrite length_delete by eauto. do 3 f_equal. lia.
Qed.

Lemma leaf_merge_right_mk a b p n p' n' : length a + length b <= LEAF_N ->
  exists r, leaf_merge_right (mk_leaf a p n) (mk_leaf b p' n') = Ok (mk_leaf (a ++ b) p n', r) /\
    leaf_drop r = Ok tt.
Proof.
  intros H. unfold leaf_merge_right, leaf_extend. simpl.
  rewrite (move_tail_mk LEAF_N LEAF_N [] (keysof b) (keysof a));
    rewrite ?app_length, ?keysof_length; simpl; try lia.
  simpl.
  rewrite (move_tail_mk LEAF_N LEAF_N [] (valsof b) (valsof a));
    rewrite ?app_length, ?valsof_length; simpl; try lia.
  simpl. eexists. unfold mk_leaf, leaf_set_next. simpl.
  rewrite keysof_app, valsof_app, app_length, Nat.sub_0_r. done.
Qed.

(** The slot array after taking slot [i] of a canonical array. *)
Lemma slot_take_split {T} cap (a b : list T) x i : i = length a ->
  slot_take (mk_slots cap (a ++ x :: b)) i =
    Ok (x, map Some a ++ None :: map Some b ++ repeat None (cap - (length a + S (length b)))).
Proof.
  intros ->. unfold slot_take.
  rewrite (mk_slots_lookup _ _ _ x) by (by apply list_lookup_middle). do 2 f_equal.
  unfold mk_slots. rewrite map_app, <- app_assoc, app_length. simpl.
  by rewrite insert_middle' by (by rewrite map_length).
Qed.

Lemma merge_delete_first_slots {T} cap (dst a b : list T) x :
  length dst + length a + length b <= cap ->
  length a + S (length b) <= cap ->
  exists r1 d1 r2,
  move_to_slice (map Some a ++ None :: map Some b ++ repeat None (cap - (length a + S (length b))))
    0 (length a) (mk_slots cap dst) (length dst) (length dst + (length a - 0)) = Ok (r1, d1) /\
  move_to_slice r1 (length a + 1) (length a + S (length b)) d1 (length dst + (length a - 0))
    (length dst + (length a - 0) + (length a + S (length b) - (length a + 1))) =
    Ok (r2, mk_slots cap ((dst ++ a ++ b) : list T)) /\ x = x :> T /\ slots_vacant r2 = true.
Proof.
  intros H1 H2.
  assert (mk_slots cap dst = map Some dst ++ repeat None (length a) ++
    repeat None (length b) ++ repeat None (cap - (length dst + length a + length b))) as ->.
  { unfold mk_slots. rewrite <- !repeat_add. do 2 f_equal. lia. }
  do 3 eexists. split; [|split; [|split; [done|]]].
  - apply (move_to_slice_app [] (map Some a) _ (map Some dst)); rewrite ?map_length, ?repeat_length; simpl; try lia.
    apply vacant_repeat.
  - simpl.
    match goal with |- move_to_slice ?s _ _ ?d _ _ = _ =>
      replace s with ((repeat None (length (map Some a)) ++ [None]) ++ map Some b ++
        repeat None (cap - (length a + S (length b)))) by (by rewrite <- app_assoc);
      replace d with ((map Some dst ++ map Some a) ++ repeat None (length b) ++
         repeat None (cap - (length dst + length a + length b))) by (by rewrite <- app_assoc)
    end.
    rewrite move_to_slice_app; rewrite ?app_length, ?repeat_length, ?map_length; simpl; try lia; [|apply vacant_repeat].
    f_equal. f_equal. unfold mk_slots. rewrite !map_app, !app_length, <- !app_assoc.
    do 4 f_equal. lia.
  - change [@None T] with (repeat (@None T) 1). rewrite <- !repeat_add. apply vacant_repeat.
Qed.

Lemma leaf_merge_right_delete_first_mk a b p n p' n' i kv :
  length a + length b <= S LEAF_N -> length b <= LEAF_N -> b !! i = Some kv ->
  exists r, leaf_merge_right_delete_first (mk_leaf a p n) i (mk_leaf b p' n') =
    Ok (kv, mk_leaf (a ++ delete i b) p n', r) /\ leaf_drop r = Ok tt.
Proof.
  destruct kv as [k v]. intros H1 H2 Hi.
  destruct (split_at_elem _ _ _ Hi) as (b1 & b2 & -> & Hl).
  rewrite delete_middle' by done. rewrite app_length in *. simpl in *.
  unfold leaf_merge_right_delete_first. simpl.
  rewrite !keysof_app, !valsof_app. simpl. fold (keysof b2) (valsof b2).
  rewrite slot_take_split by (by rewrite keysof_length). simpl.
  rewrite slot_take_split by (by rewrite valsof_length). simpl.
  unfold leaf_extend. simpl.
  destruct (merge_delete_first_slots LEAF_N (keysof a) (keysof b1) (keysof b2) k)
    as (r1 & d1 & r2 & E1 & E2 & _ & V2); rewrite ?keysof_length; [lia..|].
  destruct (merge_delete_first_slots LEAF_N (valsof a) (valsof b1) (valsof b2) v)
    as (r3 & d3 & r4 & E3 & E4 & _ & V4); rewrite ?valsof_length; [lia..|].
  rewrite ?keysof_length, ?valsof_length in *. subst i.
  rewrite E1. simpl. rewrite E3. simpl. rewrite app_length; simpl.
  rewrite E2. simpl. rewrite E4. simpl.
  eexists. split.
  - unfold mk_leaf, leaf_set_next. simpl. rewrite !keysof_app, !valsof_app, !app_length.
    do 4 f_equal. lia.
  - unfold leaf_drop. simpl. rewrite !if_vacant_true by done. done.
Qed.

Lemma leaf_split_slots {T} (l : list T) :
  length l = 64 ->
  move_to_slice (mk_slots 64 l) 32 64 (slots_empty 64) 0 32 =
    Ok (mk_slots 64 (take 32 l), mk_slots 64 (drop 32 l)).
Proof.
  intros H. rewrite slots_empty_mk. rewrite <- (take_drop 32 l) at 1.
  rewrite (move_tail_mk 64 64 (take 32 l) (drop 32 l) []); try done;
    rewrite ?app_length, ?take_length, ?drop_length; cbn [length]; lia.
Qed.

Lemma leaf_split_mk kvs p n i item rid lid :
  length kvs = LEAF_N -> i <= LEAF_N ->
  exists l r, leaf_split_new_leaf (mk_leaf kvs p n) i item rid lid =
    Ok (mk_leaf r (Some lid) n, mk_leaf l p (Some rid)) /\
    l ++ r = linsert i item kvs /\ length l = (if decide (i < 32) then 33 else 32) /\
    length r = (if decide (i < 32) then 32 else 33).
Proof.
  destruct item as [k v]. intros Hk Hi. unfold leaf_split_new_leaf. simpl.
  unfold LEAF_N, leaf_split_origin_size in *. simpl.
  rewrite leaf_split_slots by (by rewrite keysof_length). simpl.
  rewrite leaf_split_slots by (by rewrite valsof_length). simpl.
  assert (take 32 (keysof kvs) = keysof (take 32 kvs)) as -> by apply firstn_map.
  assert (take 32 (valsof kvs) = valsof (take 32 kvs)) as -> by apply firstn_map.
  assert (drop 32 (keysof kvs) = keysof (drop 32 kvs)) as -> by apply skipn_map.
  assert (drop 32 (valsof kvs) = valsof (drop 32 kvs)) as -> by apply skipn_map.
  assert (length (take 32 kvs) = 32) as L1 by (rewrite take_length; lia).
  assert (length (drop 32 kvs) = 32) as L2 by (rewrite drop_length; lia).
  destruct (decide (i < 32)) as [H|H].
  - rewrite slice_insert_mk by (rewrite ?keysof_length; lia). simpl.
    rewrite slice_insert_mk by (rewrite ?valsof_length; lia). simpl.
    exists (linsert i (k, v) (take 32 kvs)), (drop 32 kvs). split; [|split_and!].
    + unfold mk_leaf. rewrite L2, linsert_length, L1, keysof_linsert, valsof_linsert. done.
    + unfold linsert. rewrite <- app_assoc. simpl.
      rewrite take_take, Nat.min_l by lia.
      do 2 f_equal.
      rewrite <- (take_drop 32 kvs) at 3. rewrite drop_app_le by lia. done.
    + by rewrite linsert_length, L1.
    + done.
  - rewrite slice_insert_mk by (rewrite ?keysof_length; lia). simpl.
    rewrite slice_insert_mk by (rewrite ?valsof_length; lia). simpl.
    exists (take 32 kvs), (linsert (i - 32) (k, v) (drop 32 kvs)). split; [|split_and!].
    + unfold mk_leaf. rewrite L1, linsert_length, L2, keysof_linsert, valsof_linsert. done.
    + unfold linsert. rewrite app_assoc, drop_drop.
      replace (32 + (i - 32)) with i by lia. f_equal.
      rewrite <- (take_drop 32 kvs) at 3. rewrite take_app_ge by lia. by rewrite L1.
    + done.
    + by rewrite linsert_length, L2.
Qed.

Lemma leaf_clone_mk kvs p n : length kvs <= LEAF_N ->
  leaf_clone (mk_leaf kvs p n) = Ok (mk_leaf kvs p n).
Proof.
  intros H. unfold leaf_clone. rewrite leaf_keys_mk, leaf_values_mk by done. done.
Qed.

Lemma leaf_keys_set_prev (l : leaf K V) q : leaf_keys (leaf_set_prev l q) = leaf_keys l.
Proof. done. Qed.
Lemma leaf_set_prev_mk kvs p n q : leaf_set_prev (mk_leaf kvs p n) q = mk_leaf kvs q n.
Proof. done. Qed.
Lemma leaf_set_next_mk kvs p n q : leaf_set_next (mk_leaf kvs p n) q = mk_leaf kvs p q.
Proof. done. Qed.

End Leaf.

Section Inner.
Context {K A : Type} {PF : Profile}.
Implicit Types (ks : list K) (cs : list node_id) (aus : list A).

(** An inner node holding [ks], [cs] and [aus] in its first slots. *)
Definition mk_inner ks cs aus : inner K A :=
  mkInner (length ks) (mk_slots INNER_N ks) (mk_slots INNER_C cs) (mk_slots INNER_C aus).

(** The lists fit into a node. *)
Definition inner_fits ks cs aus : Prop :=
  length ks <= INNER_N /\ length cs = S (length ks) /\ length aus = S (length ks).

Lemma inner_new_from_iter_mk ks cs aus : inner_fits ks cs aus ->
  inner_new_from_iter ks cs aus = Ok (mk_inner ks cs aus).
Proof.
  intros (H1 & H2 & H3). unfold inner_new_from_iter, INNER_N, INNER_C in *.
  rewrite !slots_empty_mk.
  rewrite fill_slots_mk by (simpl; lia). rewrite obind_Ok.
  rewrite fill_slots_mk by (simpl; lia). rewrite obind_Ok.
  rewrite fill_slots_mk by (simpl; lia). rewrite obind_Ok.
  rewrite decide_True by lia. done.
Qed.

Lemma inner_keys_mk ks cs aus : inner_fits ks cs aus ->
  inner_keys (mk_inner ks cs aus) = Ok ks.
Proof. intros (H1 & H2 & H3). by apply slots_prefix_mk. Qed.

Lemma inner_augmentations_mk ks cs aus : inner_fits ks cs aus ->
  inner_augmentations (mk_inner ks cs aus) = Ok aus.
Proof.
  intros (H1 & H2 & H3). unfold inner_augmentations.
  apply slots_prefix_mk; unfold INNER_N, INNER_C in *; simpl; lia.
Qed.

Lemma inner_set_augmentation_mk ks cs aus i a : i < length aus ->
  inner_set_augmentation (mk_inner ks cs aus) i a = Ok (mk_inner ks cs (<[i := a]> aus)).
Proof.
  intros H. destruct (lookup_lt_is_Some_2 aus i H) as [y Hy].
  unfold inner_set_augmentation. simpl. by rewrite (slot_replace_mk _ _ _ _ y).
Qed.

Lemma inner_child_id_mk ks cs aus i c : cs !! i = Some c ->
  inner_child_id (mk_inner ks cs aus) i = Ok c.
Proof. intros H. by apply slot_get_mk. Qed.

Lemma inner_set_key_mk ks cs aus i k k' : ks !! i = Some k ->
  inner_set_key (mk_inner ks cs aus) i k' = Ok (k, mk_inner (<[i := k']> ks) cs aus).
Proof.
  intros H. unfold inner_set_key. simpl. rewrite (slot_replace_mk _ _ _ _ k) by done. simpl.
  unfold mk_inner. by rewrite insert_length.
Qed.

Lemma inner_insert_at_mk ks cs aus i k c a : inner_fits ks cs aus -> i <= length ks ->
  length ks < INNER_N ->
  inner_insert_at (mk_inner ks cs aus) i k c a =
    Ok (mk_inner (linsert i k ks) (linsert (S i) c cs) (linsert (S i) a aus)).
Proof.
  intros (H1 & H2 & H3) Hi Hl. unfold inner_insert_at, inner_is_full. simpl.
  rewrite decide_True by done. rewrite bool_decide_false by lia.
  unfold INNER_N, INNER_C in *.
  rewrite slice_insert_mk by lia. rewrite obind_Ok.
  rewrite slice_insert_mk by lia. rewrite obind_Ok.
  rewrite slice_insert_mk by lia. rewrite obind_Ok.
  unfold mk_inner. rewrite linsert_length, !Nat.add_1_r. done.
Qed.

Lemma inner_remove_slot_with_right_mk ks cs aus i k : inner_fits ks cs aus ->
  ks !! i = Some k ->
  inner_remove_slot_with_right (mk_inner ks cs aus) i =
    Ok (if decide (MIN_N <= length ks - 1) then MergeDone else MergeUnderSize, k,
        mk_inner (delete i ks) (delete (S i) cs) (delete (S i) aus)).
Proof.
  intros (H1 & H2 & H3) Hk. unfold inner_remove_slot_with_right. cbn [i_size i_keys i_child i_augs mk_inner].
  pose proof (lookup_lt_Some _ _ _ Hk).
  destruct (lookup_lt_is_Some_2 cs (i + 1) ltac:(lia)) as [c Hc].
  destruct (lookup_lt_is_Some_2 aus (i + 1) ltac:(lia)) as [a Ha].
  unfold INNER_N, INNER_C in *.
  rewrite (slice_remove_mk _ _ _ _ k) by (done || lia). rewrite obind_Ok.
  rewrite (slice_remove_mk _ _ _ _ c) by (done || lia). rewrite obind_Ok.
  rewrite (slice_remove_mk _ _ _ _ a) by (done || lia). rewrite obind_Ok.
  destruct (length ks) as [|m] eqn:E; [lia|]. cbn [usize_pred]. rewrite obind_Ok.
  unfold mk_inner. rewrite length_delete by eauto. rewrite E, Nat.add_1_r.
  replace (S m - 1) with m by lia. unfold inner_minimum_size. by destruct (decide _).
Qed.

Lemma inner_merge_next_mk ks cs aus k ks' cs' aus' :
  inner_fits ks cs aus -> inner_fits ks' cs' aus' -> length ks + S (length ks') <= INNER_N ->
  inner_merge_next (mk_inner ks cs aus) k (mk_inner ks' cs' aus') =
    Ok (mk_inner (ks ++ k :: ks') (cs ++ cs') (aus ++ aus'), mk_inner [] [] []).
Proof.
  intros (H1 & H2 & H3) (H1' & H2' & H3') Hl. unfold inner_merge_next.
  cbn [i_size i_keys i_child i_augs mk_inner]. unfold INNER_N, INNER_C in *.
  rewrite slot_put_mk by lia. rewrite obind_Ok. rewrite decide_True by lia.
  rewrite (move_tail_mk 64 64 [] ks' (ks ++ [k])); rewrite ?app_length; cbn [length]; try lia.
  rewrite obind_Ok.
  rewrite (move_tail_mk 65 65 [] cs' cs); rewrite ?app_length; cbn [length]; try lia.
  rewrite obind_Ok.
  rewrite (move_tail_mk 65 65 [] aus' aus); rewrite ?app_length; cbn [length]; try lia.
  rewrite obind_Ok. rewrite <- app_assoc. unfold mk_inner. rewrite app_length. cbn [length].
  do 3 f_equal. lia.
Qed.

Lemma inner_pop_mk ks cs aus k c a : inner_fits (ks ++ [k]) (cs ++ [c]) (aus ++ [a]) ->
  inner_pop (mk_inner (ks ++ [k]) (cs ++ [c]) (aus ++ [a])) = Ok ((k, c, a), mk_inner ks cs aus).
Proof.
  intros (H1 & H2 & H3). rewrite !app_length in *. cbn [length] in *.
  unfold inner_pop. cbn [i_size i_keys i_child i_augs mk_inner].
  unfold INNER_N, INNER_C in *. rewrite app_length. cbn [length]. rewrite Nat.add_1_r.
  cbn [usize_pred]. rewrite obind_Ok.
  rewrite slot_take_last by lia. rewrite obind_Ok.
  replace (S (length ks)) with (length cs) by lia.
  rewrite slot_take_last by lia. rewrite obind_Ok.
  replace (length cs) with (length aus) by lia.
  rewrite slot_take_last by lia. rewrite obind_Ok. done.
Qed.

Lemma inner_pop_front_mk ks cs aus k c a : inner_fits (k :: ks) (c :: cs) (a :: aus) ->
  inner_pop_front (mk_inner (k :: ks) (c :: cs) (a :: aus)) = Ok ((k, c, a), mk_inner ks cs aus).
Proof.
  intros (H1 & H2 & H3). cbn [length] in *.
  unfold inner_pop_front. cbn [i_size i_keys i_child i_augs mk_inner length].
  unfold INNER_N, INNER_C in *.
  rewrite (slice_remove_mk _ _ _ _ k) by (done || (cbn [length]; lia)). rewrite obind_Ok.
  rewrite (slice_remove_mk _ _ _ _ c) by (done || (cbn [length]; lia)). rewrite obind_Ok.
  rewrite (slice_remove_mk _ _ _ _ a) by (done || (cbn [length]; lia)). rewrite obind_Ok.
  done.
Qed.

Lemma inner_push_mk ks cs aus k c a : inner_fits ks cs aus -> length ks < INNER_N ->
  inner_push (mk_inner ks cs aus) k c a =
    Ok (mk_inner (ks ++ [k]) (cs ++ [c]) (aus ++ [a])).
Proof.
  intros (H1 & H2 & H3) Hl. unfold inner_push. cbn [i_size i_keys i_child i_augs mk_inner].
  unfold INNER_N, INNER_C in *.
  rewrite slot_put_mk by lia. rewrite obind_Ok.
  rewrite slot_put_mk by lia. rewrite obind_Ok.
  rewrite slot_put_mk by lia. rewrite obind_Ok.
  unfold mk_inner. by rewrite app_length.
Qed.

Lemma inner_push_front_mk ks cs aus k c a : inner_fits ks cs aus -> length ks < INNER_N ->
  inner_push_front (mk_inner ks cs aus) k c a =
    Ok (mk_inner (k :: ks) (c :: cs) (a :: aus)).
Proof.
  intros (H1 & H2 & H3) Hl. unfold inner_push_front. cbn [i_size i_keys i_child i_augs mk_inner].
  unfold INNER_N, INNER_C in *.
  rewrite slice_insert_mk by lia. rewrite obind_Ok.
  rewrite slice_insert_mk by lia. rewrite obind_Ok.
  rewrite slice_insert_mk by lia. rewrite obind_Ok.
  unfold mk_inner. cbn [length]. by rewrite Nat.add_1_r.
Qed.

Lemma inner_clone_mk ks cs aus : inner_fits ks cs aus ->
  inner_clone (mk_inner ks cs aus) = Ok (mk_inner ks cs aus).
Proof.
  intros H. unfold inner_clone.
  change (slots_prefix (i_keys (mk_inner ks cs aus)) (i_size (mk_inner ks cs aus)))
    with (inner_keys (mk_inner ks cs aus)).
  change (slots_prefix (i_augs (mk_inner ks cs aus)) (i_size (mk_inner ks cs aus) + 1))
    with (inner_augmentations (mk_inner ks cs aus)).
  rewrite inner_keys_mk, inner_augmentations_mk by done. done.
Qed.

Lemma drop_prefix_mk {T} b cap (l : list T) n : length l <= cap -> n = length l ->
  drop_prefix b (mk_slots cap l) n = Ok tt.
Proof.
  intros H ->. unfold drop_prefix. rewrite mk_slots_length, decide_True by lia.
  rewrite mk_slots_take, firstn_all, slots_all_map by lia. by destruct b.
Qed.

Lemma inner_drop_mk b ks cs aus : inner_fits ks cs aus ->
  inner_drop b (mk_inner ks cs aus) = Ok tt.
Proof.
  intros (H1 & H2 & H3). unfold inner_drop. cbn [i_keys i_augs i_size mk_inner].
  rewrite !drop_prefix_mk by (unfold INNER_N, INNER_C in *; lia).
  rewrite !if_vacant_true by (apply vacant_mk_drop; lia). done.
Qed.

(** *** Splitting *)
Lemma move_put_move {T} cap (P : slots T) (b c : list T) x p pb pc :
  p = length P -> pb = length P + length b -> pc = length P + length b + length c ->
  length b + S (length c) <= cap ->
  exists s1,
  move_to_slice (P ++ map Some b ++ map Some c) p pb (slots_empty cap) 0 (length b) =
    Ok (s1, mk_slots cap b) /\
  slot_put (mk_slots cap b) (length b) x = Ok (mk_slots cap (b ++ [x])) /\
  move_to_slice s1 pb pc (mk_slots cap (b ++ [x])) (length b + 1) (length b + 1 + length c) =
    Ok (P ++ repeat None (length b + length c), mk_slots cap (b ++ x :: c)).
Proof.
  intros -> -> -> Hc. eexists. split; [|split].
  - rewrite slots_empty_mk.
    assert (mk_slots cap (@nil T) = [] ++ repeat None (length b) ++ repeat None (cap - length b)) as ->.
    { unfold mk_slots. simpl. rewrite <- repeat_add. f_equal. lia. }
    rewrite move_to_slice_app; rewrite ?map_length, ?repeat_length; cbn [length]; try lia; [|apply vacant_repeat].
    done.
  - apply slot_put_mk; lia.
  - assert (mk_slots cap (b ++ [x]) = map Some (b ++ [x]) ++ repeat None (length c) ++
      repeat None (cap - (length b + 1 + length c))) as ->.
    { unfold mk_slots. rewrite <- repeat_add, app_length. do 2 f_equal. cbn [length]. lia. }
    rewrite app_assoc, <- (app_nil_r (map Some c)), ?map_length.
    rewrite move_to_slice_app; rewrite ?app_length, ?map_length, ?repeat_length, ?app_length;
      cbn [length]; try lia; [|apply vacant_repeat].
    rewrite app_nil_r, <- app_assoc, <- repeat_add. do 2 f_equal.
    unfold mk_slots. rewrite !map_app, <- !app_assoc, app_length. cbn [map app length].
    do 4 f_equal. lia.
Qed.

Lemma mk_slots_pad {T} cap (a : list T) n : n = cap - length a ->
  map Some a ++ repeat None n = mk_slots cap a.
Proof. intros ->. done. Qed.

(** The lists a full node is split into when [k], [c], [a] are added behind
    child [ci]. *)
Lemma inner_split_mk ks cs aus ci k c a : inner_fits ks cs aus -> length ks = INNER_N ->
  ci <= INNER_N ->
  exists pk, linsert ci k ks !! 32 = Some pk /\
  inner_split (mk_inner ks cs aus) ci k c a =
    Ok (pk,
        mk_inner (drop 33 (linsert ci k ks)) (drop 33 (linsert (S ci) c cs)) (drop 33 (linsert (S ci) a aus)),
        mk_inner (take 32 (linsert ci k ks)) (take 33 (linsert (S ci) c cs)) (take 33 (linsert (S ci) a aus))).
Proof.
  intros (_ & H2 & H3) H1 Hci. unfold INNER_N in *. rewrite H1 in H2, H3.
  unfold inner_split, inner_is_full. cbn [i_size i_keys i_child i_augs mk_inner].
  rewrite bool_decide_true by done.
  unfold inner_split_new_size, inner_split_origin_size, INNER_N, INNER_C in *.
  change (64 - 32) with 32. change (64 + 1) with 65. change (32 + 1) with 33. change (32 + 2) with 34.
  change (32 - 1) with 31.
  destruct (decide (ci < 32)) as [Hlt|Hge]; [|destruct (decide (32 < ci)) as [Hgt|Heq]].
  - (* insert into the left node *)
    destruct (lookup_lt_is_Some_2 ks 31 ltac:(lia)) as [x Hx].
    destruct (split_at_elem _ _ _ Hx) as (k1 & k2 & -> & Hk1).
    rewrite app_length in H1. cbn [length] in H1.
    destruct (split_at cs 32 ltac:(lia)) as (c1 & c2 & -> & Hc1).
    destruct (split_at aus 32 ltac:(lia)) as (a1 & a2 & -> & Ha1).
    rewrite !app_length in *. cbn [length] in *.
    rewrite slot_take_split by done. rewrite obind_Ok.
    replace (map Some k1 ++ None :: map Some k2 ++ repeat None (64 - (length k1 + S (length k2))))
      with ((map Some k1 ++ [None]) ++ map Some k2 ++ []).
    2:{ rewrite <- app_assoc. cbn [app]. do 3 f_equal.
        replace (64 - (length k1 + S (length k2))) with 0 by lia. done. }
    assert (forall T, slots_empty (T:=T) 64 = [] ++ repeat None (length k2) ++ repeat None 32) as Ee.
    { intros T. replace (length k2) with 32 by lia. done. }
    rewrite Ee.
    rewrite move_to_slice_app; rewrite ?app_length, ?map_length, ?repeat_length; cbn [length]; try lia;
      [|apply vacant_repeat].
    rewrite obind_Ok. rewrite !slots_empty_mk.
    rewrite (move_tail_mk 65 65 c1 c2 []); rewrite ?app_length; cbn [length]; try lia.
    rewrite obind_Ok.
    rewrite (move_tail_mk 65 65 a1 a2 []); rewrite ?app_length; cbn [length]; try lia.
    rewrite obind_Ok. cbn [app].
    assert ((map Some k1 ++ [None]) ++ repeat None (length k2) ++ [] = mk_slots 64 k1) as ->.
    { rewrite app_nil_r, <- app_assoc. apply (mk_slots_pad 64 k1 (S (length k2))). lia. }
    rewrite (mk_slots_pad 64) by lia.
    rewrite slice_insert_mk by lia. rewrite obind_Ok.
    rewrite slice_insert_mk by lia. rewrite obind_Ok.
    rewrite slice_insert_mk by lia. rewrite obind_Ok.
    assert (forall T (l1 l2 : list T) i y, i <= length l1 ->
      linsert i y (l1 ++ l2) = linsert i y l1 ++ l2) as El.
    { intros T l1 l2 i y Hi. unfold linsert. rewrite take_app_le, drop_app_le by lia.
      by rewrite <- app_assoc. }
    rewrite !El by lia. rewrite Nat.add_1_r.
    exists x. rewrite lookup_middle' by (rewrite linsert_length; lia). split; [done|].
    rewrite drop_S_middle by (rewrite linsert_length; lia).
    rewrite !drop_app' by (rewrite linsert_length; lia).
    rewrite !take_app' by (rewrite linsert_length; lia).
    unfold mk_inner. rewrite linsert_length.
    replace (S (length k1)) with 32 by lia. by replace (length k2) with 32 by lia.
  - (* insert into the right node *)
    destruct (lookup_lt_is_Some_2 ks 32 ltac:(lia)) as [x Hx].
    destruct (split_at_elem _ _ _ Hx) as (k1 & k23 & -> & Hk1).
    destruct (split_at cs 33 ltac:(lia)) as (c1 & c23 & -> & Hc1).
    destruct (split_at aus 33 ltac:(lia)) as (a1 & a23 & -> & Ha1).
    rewrite !app_length in *. cbn [length] in *.
    destruct (split_at k23 (ci - 1 - 32) ltac:(lia)) as (k2 & k3 & -> & Hk2).
    destruct (split_at c23 (ci - 32) ltac:(lia)) as (c2 & c3 & -> & Hc2).
    destruct (split_at a23 (ci - 32) ltac:(lia)) as (a2 & a3 & -> & Ha2).
    rewrite !app_length in *.
    rewrite slot_take_split by done. rewrite obind_Ok.
    replace (map Some k1 ++ None :: map Some (k2 ++ k3) ++ repeat None (64 - (length k1 + S (length (k2 ++ k3)))))
      with ((map Some k1 ++ [None]) ++ map Some k2 ++ map Some k3).
    2:{ rewrite <- app_assoc. cbn [app]. rewrite app_length.
        replace (64 - (length k1 + S (length k2 + length k3))) with 0 by lia.
        by rewrite app_nil_r, map_app. }
    destruct (move_put_move 64 (map Some k1 ++ [None]) k2 k3 k 33 (32 + (ci - 1 - 32) + 1) 64)
      as (s1 & E1 & E2 & E3); rewrite ?app_length, ?map_length; cbn [length]; try lia.
    rewrite (mk_slots_full 65 (c1 ++ c2 ++ c3)) by (rewrite !app_length; lia).
    rewrite (mk_slots_full 65 (a1 ++ a2 ++ a3)) by (rewrite !app_length; lia).
    rewrite !map_app.
    destruct (move_put_move 65 (map Some c1) c2 c3 c 33 (33 + (ci - 32)) 65)
      as (s2 & E4 & E5 & E6); rewrite ?app_length, ?map_length; cbn [length]; try lia.
    destruct (move_put_move 65 (map Some a1) a2 a3 a 33 (33 + (ci - 32)) 65)
      as (s3 & E7 & E8 & E9); rewrite ?app_length, ?map_length; cbn [length]; try lia.
    rewrite Hk2 in *. rewrite Hc2 in *. rewrite Ha2 in *.
    rewrite E1, obind_Ok, E4, obind_Ok, E7, obind_Ok, E2, obind_Ok, E5, obind_Ok, E8, obind_Ok.
    replace (ci - 1 - 32 + 1 + length k3) with 32 in E3 by lia. rewrite E3, obind_Ok.
    replace (ci - 32 + 1 + length c3) with 33 in E6 by lia. rewrite E6, obind_Ok.
    replace (ci - 32 + 1 + length a3) with 33 in E9 by lia. rewrite E9, obind_Ok.
    exists x.
    assert (forall T (l1 l2 l3 : list T) i y, i = length l1 + length l2 ->
      linsert i y (l1 ++ l2 ++ l3) = l1 ++ l2 ++ y :: l3) as El.
    { intros T l1 l2 l3 i y Hi. rewrite app_assoc. rewrite linsert_app' by (rewrite app_length; lia).
      by rewrite <- app_assoc. }
    change (x :: k2 ++ k3) with ((x :: k2) ++ k3).
    rewrite !El by (cbn [length]; lia). cbn [app].
    rewrite lookup_middle' by done. split; [done|].
    rewrite drop_S_middle by lia. rewrite !drop_app' by lia. rewrite !take_app' by lia.
    unfold mk_inner. rewrite app_length. cbn [length]. rewrite Hk1.
    replace (length k2 + S (length k3)) with 32 by lia.
    rewrite <- app_assoc. cbn [app].
    rewrite (mk_slots_pad 65 c1) by lia. rewrite (mk_slots_pad 65 a1) by lia.
    do 3 f_equal. apply (mk_slots_pad 64 k1 (S (ci - 1 - 32 + length k3))). lia.
  - (* the new key is promoted *)
    assert (ci = 32) as -> by lia.
    destruct (split_at ks 32 ltac:(lia)) as (k1 & k2 & -> & Hk1).
    destruct (split_at cs 33 ltac:(lia)) as (c1 & c2 & -> & Hc1).
    destruct (split_at aus 33 ltac:(lia)) as (a1 & a2 & -> & Ha1).
    rewrite !app_length in *.
    rewrite slots_empty_mk.
    rewrite (move_tail_mk 64 64 k1 k2 []); rewrite ?app_length; cbn [length]; try lia.
    rewrite obind_Ok.
    assert (forall T (l1 l2 : list T) (y : T), length l1 = 33 -> length l2 = 32 -> exists s,
      move_to_slice (mk_slots 65 (l1 ++ l2)) 33 65 (slots_empty 65) 1 33 = Ok (mk_slots 65 l1, s) /\
      slot_put s 0 y = Ok (mk_slots 65 (y :: l2))) as Em.
    { intros T l1 l2 y L1 L2. eexists. split.
      - rewrite mk_slots_full by (rewrite app_length; lia). rewrite map_app.
        rewrite <- (app_nil_r (map Some l2)).
        assert (slots_empty (T:=T) 65 = [None] ++ repeat None (length l2) ++ repeat None 32) as ->.
        { rewrite L2. done. }
        rewrite move_to_slice_app; rewrite ?map_length, ?repeat_length; cbn [length]; try lia; [|apply vacant_repeat].
        rewrite app_nil_r, ?map_length. rewrite (mk_slots_pad 65) by lia. done.
      - cbn. rewrite L2. done. }
    destruct (Em _ c1 c2 c) as (s1 & E1 & E2); [lia..|]. rewrite E1, obind_Ok.
    destruct (Em _ a1 a2 a) as (s2 & E3 & E4); [lia..|]. rewrite E3, obind_Ok.
    rewrite E2, obind_Ok, E4, obind_Ok. exists k.
    rewrite !linsert_app' by lia. rewrite lookup_middle' by done. split; [done|].
    rewrite drop_S_middle by lia. rewrite !drop_app' by lia. rewrite !take_app' by lia.
    unfold mk_inner. rewrite Hk1. cbn [app]. by replace (length k2) with 32 by lia.
Qed.

End Inner.
