(** A release build does what a debug build does, wherever the debug build does
    not panic: function by function. *)
From stdpp Require Import list.
From Verif Require Import Base Slots BinSearch LeafNode InnerNode Store Tree Remove Iterators Observe
  BulkLoad Cursor Augment MapSet History SetHist ReleaseSpec.

Notation sim := same_unless_panic.
Lemma sim_refl {X} (o : outcome X) : sim o o.
Proof. by right. Qed.
Lemma sim_panic {X} (o : outcome X) : sim Panic o.
Proof. by left. Qed.
Lemma sim_bind {X Y} (o1 o2 : outcome X) (f1 f2 : X -> outcome Y) : sim o1 o2 -> (forall x, sim (f1 x) (f2 x)) ->
  sim (obind o1 f1) (obind o2 f2).
Proof. intros [->| ->] H; [by left|]. destruct o1; simpl; (apply H || apply sim_refl). Qed.

Create HintDb sim discriminated.
#[local] Hint Constants Opaque : sim.
#[local] Hint Variables Opaque : sim.
Ltac sim := repeat first
  [ progress intros
  | match goal with |- sim ?x ?x => exact (sim_refl x) end
  | match goal with |- sim Panic _ => apply sim_panic | |- sim (if @dev dev_build then Panic else _) _ => apply sim_panic end
  | solve [auto with sim nocore]
  | simple apply sim_bind
  | match goal with
    | |- sim (match ?x with _ => _ end) (match ?x with _ => _ end) => destruct x
    | |- sim (let '_ := ?x in _) _ => destruct x
    end
  | progress cbn beta iota ].

Section Release.
Context {K V A Q : Type} {KO : KeyOps K} {AO : AugOps K V A}.
Lemma usize_pred_sim n : sim (usize_pred (PF:=dev_build) n) (usize_pred (PF:=release_build) n).
Proof.
  unfold usize_pred. sim.
Qed.
Hint Resolve usize_pred_sim : sim.
Lemma slice_insert_sim {T : Type} (s : slots T) n idx x : sim (slice_insert (PF:=dev_build) s n idx x) (slice_insert (PF:=release_build) s n idx x).
Proof.
  unfold slice_insert. sim.
Qed.
Hint Resolve slice_insert_sim : sim.
Lemma slice_remove_sim {T : Type} (s : slots T) n idx : sim (slice_remove (PF:=dev_build) s n idx) (slice_remove (PF:=release_build) s n idx).
Proof.
  unfold slice_remove. sim.
Qed.
Hint Resolve slice_remove_sim : sim.
Lemma leaf_key_range_sim n : sim (leaf_key_range (PF:=dev_build) (K:=K) (V:=V) n) (leaf_key_range (PF:=release_build) (K:=K) (V:=V) n).
Proof.
  unfold leaf_key_range. sim.
Qed.
Hint Resolve leaf_key_range_sim : sim.
Lemma leaf_in_range_sim n p : sim (leaf_in_range (PF:=dev_build) (K:=K) (V:=V) n p) (leaf_in_range (PF:=release_build) (K:=K) (V:=V) n p).
Proof.
  unfold leaf_in_range. sim.
Qed.
Hint Resolve leaf_in_range_sim : sim.
Lemma leaf_try_upsert_sim n k v : sim (leaf_try_upsert (PF:=dev_build) (K:=K) (V:=V) n k v) (leaf_try_upsert (PF:=release_build) (K:=K) (V:=V) n k v).
Proof.
  unfold leaf_try_upsert. sim.
Qed.
Hint Resolve leaf_try_upsert_sim : sim.
Lemma leaf_split_new_leaf_sim n insert_idx item new_leaf_id self_leaf_id : sim (leaf_split_new_leaf (PF:=dev_build) (K:=K) (V:=V) n insert_idx item new_leaf_id self_leaf_id) (leaf_split_new_leaf (PF:=release_build) (K:=K) (V:=V) n insert_idx item new_leaf_id self_leaf_id).
Proof.
  unfold leaf_split_new_leaf. sim.
Qed.
Hint Resolve leaf_split_new_leaf_sim : sim.
Lemma leaf_delete_at_sim n idx : sim (leaf_delete_at (PF:=dev_build) (K:=K) (V:=V) n idx) (leaf_delete_at (PF:=release_build) (K:=K) (V:=V) n idx).
Proof.
  unfold leaf_delete_at. sim.
Qed.
Hint Resolve leaf_delete_at_sim : sim.
Lemma leaf_try_delete_at_sim n idx : sim (leaf_try_delete_at (PF:=dev_build) (K:=K) (V:=V) n idx) (leaf_try_delete_at (PF:=release_build) (K:=K) (V:=V) n idx).
Proof.
  unfold leaf_try_delete_at. sim.
Qed.
Hint Resolve leaf_try_delete_at_sim : sim.
Lemma leaf_pop_sim n : sim (leaf_pop (PF:=dev_build) (K:=K) (V:=V) n) (leaf_pop (PF:=release_build) (K:=K) (V:=V) n).
Proof.
  unfold leaf_pop. sim.
Qed.
Hint Resolve leaf_pop_sim : sim.
Lemma leaf_pop_front_sim n : sim (leaf_pop_front (PF:=dev_build) (K:=K) (V:=V) n) (leaf_pop_front (PF:=release_build) (K:=K) (V:=V) n).
Proof.
  unfold leaf_pop_front. sim.
Qed.
Hint Resolve leaf_pop_front_sim : sim.
Lemma leaf_delete_with_push_sim n idx item : sim (leaf_delete_with_push (PF:=dev_build) (K:=K) (V:=V) n idx item) (leaf_delete_with_push (PF:=release_build) (K:=K) (V:=V) n idx item).
Proof.
  unfold leaf_delete_with_push. sim.
Qed.
Hint Resolve leaf_delete_with_push_sim : sim.
Lemma leaf_delete_with_push_front_sim n idx item : sim (leaf_delete_with_push_front (PF:=dev_build) (K:=K) (V:=V) n idx item) (leaf_delete_with_push_front (PF:=release_build) (K:=K) (V:=V) n idx item).
Proof.
  unfold leaf_delete_with_push_front. sim.
Qed.
Hint Resolve leaf_delete_with_push_front_sim : sim.
Lemma leaf_take_data_sim n slot : sim (leaf_take_data (PF:=dev_build) (K:=K) (V:=V) n slot) (leaf_take_data (PF:=release_build) (K:=K) (V:=V) n slot).
Proof.
  unfold leaf_take_data. sim.
Qed.
Hint Resolve leaf_take_data_sim : sim.
Lemma inner_insert_at_sim n slot k c a : sim (inner_insert_at (PF:=dev_build) (K:=K) (A:=A) n slot k c a) (inner_insert_at (PF:=release_build) (K:=K) (A:=A) n slot k c a).
Proof.
  unfold inner_insert_at. sim.
Qed.
Hint Resolve inner_insert_at_sim : sim.
Lemma inner_split_sim n child_idx k c a : sim (inner_split (PF:=dev_build) (K:=K) (A:=A) n child_idx k c a) (inner_split (PF:=release_build) (K:=K) (A:=A) n child_idx k c a).
Proof.
  unfold inner_split. sim.
Qed.
Hint Resolve inner_split_sim : sim.
Lemma inner_remove_slot_with_right_sim n slot : sim (inner_remove_slot_with_right (PF:=dev_build) (K:=K) (A:=A) n slot) (inner_remove_slot_with_right (PF:=release_build) (K:=K) (A:=A) n slot).
Proof.
  unfold inner_remove_slot_with_right. sim.
Qed.
Hint Resolve inner_remove_slot_with_right_sim : sim.
Lemma inner_merge_next_sim n slot_key right : sim (inner_merge_next (PF:=dev_build) (K:=K) (A:=A) n slot_key right) (inner_merge_next (PF:=release_build) (K:=K) (A:=A) n slot_key right).
Proof.
  unfold inner_merge_next. sim.
Qed.
Hint Resolve inner_merge_next_sim : sim.
Lemma inner_pop_sim n : sim (inner_pop (PF:=dev_build) (K:=K) (A:=A) n) (inner_pop (PF:=release_build) (K:=K) (A:=A) n).
Proof.
  unfold inner_pop. sim.
Qed.
Hint Resolve inner_pop_sim : sim.
Lemma inner_pop_front_sim n : sim (inner_pop_front (PF:=dev_build) (K:=K) (A:=A) n) (inner_pop_front (PF:=release_build) (K:=K) (A:=A) n).
Proof.
  unfold inner_pop_front. sim.
Qed.
Hint Resolve inner_pop_front_sim : sim.
Lemma inner_push_front_sim n k c a : sim (inner_push_front (PF:=dev_build) (K:=K) (A:=A) n k c a) (inner_push_front (PF:=release_build) (K:=K) (A:=A) n k c a).
Proof.
  unfold inner_push_front. sim.
Qed.
Hint Resolve inner_push_front_sim : sim.
Lemma check_cache_sim s c p : sim (check_cache (PF:=dev_build) (K:=K) (V:=V) (A:=A) s c p) (check_cache (PF:=release_build) (K:=K) (V:=V) (A:=A) s c p).
Proof.
  unfold check_cache. sim.
Qed.
Hint Resolve check_cache_sim : sim.
Lemma try_cache_sim s p : sim (try_cache (PF:=dev_build) (K:=K) (V:=V) (A:=A) s p) (try_cache (PF:=release_build) (K:=K) (V:=V) (A:=A) s p).
Proof.
  unfold try_cache. sim.
Qed.
Hint Resolve try_cache_sim : sim.
Lemma insert_leaf_sim s id k v : sim (insert_leaf (PF:=dev_build) (K:=K) (V:=V) (A:=A) s id k v) (insert_leaf (PF:=release_build) (K:=K) (V:=V) (A:=A) s id k v).
Proof.
  unfold insert_leaf. sim.
Qed.
Hint Resolve insert_leaf_sim : sim.
Lemma insert_ascend_sim stack s r : sim (insert_ascend (PF:=dev_build) (K:=K) (V:=V) (A:=A) stack s r) (insert_ascend (PF:=release_build) (K:=K) (V:=V) (A:=A) stack s r).
Proof.
  revert s r. induction stack as [|? ? IH]; intros; cbn [insert_ascend]; sim.
Qed.
Hint Resolve insert_ascend_sim : sim.
Lemma insert_inner_sim s id k v : sim (insert_inner (PF:=dev_build) (K:=K) (V:=V) (A:=A) s id k v) (insert_inner (PF:=release_build) (K:=K) (V:=V) (A:=A) s id k v).
Proof.
  unfold insert_inner. sim.
Qed.
Hint Resolve insert_inner_sim : sim.
Lemma descend_insert_sim s node k v : sim (descend_insert (PF:=dev_build) (K:=K) (V:=V) (A:=A) s node k v) (descend_insert (PF:=release_build) (K:=K) (V:=V) (A:=A) s node k v).
Proof.
  unfold descend_insert. sim.
Qed.
Hint Resolve descend_insert_sim : sim.
Lemma insert_sim t k v : sim (insert (PF:=dev_build) (K:=K) (V:=V) (A:=A) t k v) (insert (PF:=release_build) (K:=K) (V:=V) (A:=A) t k v).
Proof.
  unfold insert. sim.
Qed.
Hint Resolve insert_sim : sim.
Lemma get_sim t p : sim (get (PF:=dev_build) (K:=K) (V:=V) (A:=A) t p) (get (PF:=release_build) (K:=K) (V:=V) (A:=A) t p).
Proof.
  unfold get. sim.
Qed.
Hint Resolve get_sim : sim.
Lemma get_mut_sim t p f : sim (get_mut (PF:=dev_build) (K:=K) (V:=V) (A:=A) t p f) (get_mut (PF:=release_build) (K:=K) (V:=V) (A:=A) t p f).
Proof.
  unfold get_mut. sim.
Qed.
Hint Resolve get_mut_sim : sim.
Lemma last_sim t : sim (last (PF:=dev_build) (K:=K) (V:=V) (A:=A) t) (last (PF:=release_build) (K:=K) (V:=V) (A:=A) t).
Proof.
  unfold last. sim.
Qed.
Hint Resolve last_sim : sim.
Lemma locate_leaf_sim t k : sim (locate_leaf (PF:=dev_build) (K:=K) (V:=V) (A:=A) t k) (locate_leaf (PF:=release_build) (K:=K) (V:=V) (A:=A) t k).
Proof.
  unfold locate_leaf. sim.
Qed.
Hint Resolve locate_leaf_sim : sim.
Lemma try_rotate_right_for_inner_node_sim s node slot : sim (try_rotate_right_for_inner_node (PF:=dev_build) (K:=K) (V:=V) (A:=A) s node slot) (try_rotate_right_for_inner_node (PF:=release_build) (K:=K) (V:=V) (A:=A) s node slot).
Proof.
  unfold try_rotate_right_for_inner_node. sim.
Qed.
Hint Resolve try_rotate_right_for_inner_node_sim : sim.
Lemma try_rotate_left_for_inner_node_sim s node slot : sim (try_rotate_left_for_inner_node (PF:=dev_build) (K:=K) (V:=V) (A:=A) s node slot) (try_rotate_left_for_inner_node (PF:=release_build) (K:=K) (V:=V) (A:=A) s node slot).
Proof.
  unfold try_rotate_left_for_inner_node. sim.
Qed.
Hint Resolve try_rotate_left_for_inner_node_sim : sim.
Lemma merge_inner_node_sim s node slot : sim (merge_inner_node (PF:=dev_build) (K:=K) (V:=V) (A:=A) s node slot) (merge_inner_node (PF:=release_build) (K:=K) (V:=V) (A:=A) s node slot).
Proof.
  unfold merge_inner_node. sim.
Qed.
Hint Resolve merge_inner_node_sim : sim.
Lemma handle_inner_under_size_sim s st node child_idx kv : sim (handle_inner_under_size (PF:=dev_build) (K:=K) (V:=V) (A:=A) s st node child_idx kv) (handle_inner_under_size (PF:=release_build) (K:=K) (V:=V) (A:=A) s st node child_idx kv).
Proof.
  unfold handle_inner_under_size. sim.
Qed.
Hint Resolve handle_inner_under_size_sim : sim.
Lemma rotate_right_for_leaf_node_sim s node slot delete_idx : sim (rotate_right_for_leaf_node (PF:=dev_build) (K:=K) (V:=V) (A:=A) s node slot delete_idx) (rotate_right_for_leaf_node (PF:=release_build) (K:=K) (V:=V) (A:=A) s node slot delete_idx).
Proof.
  unfold rotate_right_for_leaf_node. sim.
Qed.
Hint Resolve rotate_right_for_leaf_node_sim : sim.
Lemma rotate_left_for_leaf_node_sim s parent slot delete_idx : sim (rotate_left_for_leaf_node (PF:=dev_build) (K:=K) (V:=V) (A:=A) s parent slot delete_idx) (rotate_left_for_leaf_node (PF:=release_build) (K:=K) (V:=V) (A:=A) s parent slot delete_idx).
Proof.
  unfold rotate_left_for_leaf_node. sim.
Qed.
Hint Resolve rotate_left_for_leaf_node_sim : sim.
Lemma merge_leaf_node_left_sim s parent slot delete_idx : sim (merge_leaf_node_left (PF:=dev_build) (K:=K) (V:=V) (A:=A) s parent slot delete_idx) (merge_leaf_node_left (PF:=release_build) (K:=K) (V:=V) (A:=A) s parent slot delete_idx).
Proof.
  unfold merge_leaf_node_left. sim.
Qed.
Hint Resolve merge_leaf_node_left_sim : sim.
Lemma merge_leaf_node_with_right_sim s parent slot delete_idx : sim (merge_leaf_node_with_right (PF:=dev_build) (K:=K) (V:=V) (A:=A) s parent slot delete_idx) (merge_leaf_node_with_right (PF:=release_build) (K:=K) (V:=V) (A:=A) s parent slot delete_idx).
Proof.
  unfold merge_leaf_node_with_right. sim.
Qed.
Hint Resolve merge_leaf_node_with_right_sim : sim.
Lemma handle_leaf_under_size_sim s st node child_idx key_idx : sim (handle_leaf_under_size (PF:=dev_build) (K:=K) (V:=V) (A:=A) s st node child_idx key_idx) (handle_leaf_under_size (PF:=release_build) (K:=K) (V:=V) (A:=A) s st node child_idx key_idx).
Proof.
  unfold handle_leaf_under_size. sim.
Qed.
Hint Resolve handle_leaf_under_size_sim : sim.
Lemma remove_ascend_sim stack s st r : sim (remove_ascend (PF:=dev_build) (K:=K) (V:=V) (A:=A) stack s st r) (remove_ascend (PF:=release_build) (K:=K) (V:=V) (A:=A) stack s st r).
Proof.
  revert s st r. induction stack as [|? ? IH]; intros; cbn [remove_ascend]; sim.
Qed.
Hint Resolve remove_ascend_sim : sim.
Lemma remove_by_ref_sim t stack leaf_id offset : sim (remove_by_ref (PF:=dev_build) (K:=K) (V:=V) (A:=A) t stack leaf_id offset) (remove_by_ref (PF:=release_build) (K:=K) (V:=V) (A:=A) t stack leaf_id offset).
Proof.
  unfold remove_by_ref. sim.
Qed.
Hint Resolve remove_by_ref_sim : sim.
Lemma remove_impl_sim t p : sim (remove_impl (PF:=dev_build) (K:=K) (V:=V) (A:=A) t p) (remove_impl (PF:=release_build) (K:=K) (V:=V) (A:=A) t p).
Proof.
  unfold remove_impl. sim.
Qed.
Hint Resolve remove_impl_sim : sim.
Lemma remove_sim t p : sim (remove (PF:=dev_build) (K:=K) (V:=V) (A:=A) t p) (remove (PF:=release_build) (K:=K) (V:=V) (A:=A) t p).
Proof.
  unfold remove. sim.
Qed.
Hint Resolve remove_sim : sim.
Lemma iter_next_back_sim t it : sim (iter_next_back (PF:=dev_build) (K:=K) (V:=V) (A:=A) t it) (iter_next_back (PF:=release_build) (K:=K) (V:=V) (A:=A) t it).
Proof.
  unfold iter_next_back. sim.
Qed.
Hint Resolve iter_next_back_sim : sim.
Lemma into_iter_next_loop_sim fuel it : sim (into_iter_next_loop (PF:=dev_build) (K:=K) (V:=V) (A:=A) fuel it) (into_iter_next_loop (PF:=release_build) (K:=K) (V:=V) (A:=A) fuel it).
Proof.
  revert it. induction fuel as [|? IH]; intros; cbn [into_iter_next_loop]; sim.
Qed.
Hint Resolve into_iter_next_loop_sim : sim.
Lemma into_iter_next_sim it : sim (into_iter_next (PF:=dev_build) (K:=K) (V:=V) (A:=A) it) (into_iter_next (PF:=release_build) (K:=K) (V:=V) (A:=A) it).
Proof.
  unfold into_iter_next. sim.
Qed.
Hint Resolve into_iter_next_sim : sim.
Lemma into_iter_next_back_loop_sim fuel it : sim (into_iter_next_back_loop (PF:=dev_build) (K:=K) (V:=V) (A:=A) fuel it) (into_iter_next_back_loop (PF:=release_build) (K:=K) (V:=V) (A:=A) fuel it).
Proof.
  revert it. induction fuel as [|? IH]; intros; cbn [into_iter_next_back_loop]; sim.
Qed.
Hint Resolve into_iter_next_back_loop_sim : sim.
Lemma into_iter_next_back_sim it : sim (into_iter_next_back (PF:=dev_build) (K:=K) (V:=V) (A:=A) it) (into_iter_next_back (PF:=release_build) (K:=K) (V:=V) (A:=A) it).
Proof.
  unfold into_iter_next_back. sim.
Qed.
Hint Resolve into_iter_next_back_sim : sim.
Lemma into_iter_drain_sim fuel it : sim (into_iter_drain (PF:=dev_build) (K:=K) (V:=V) (A:=A) fuel it) (into_iter_drain (PF:=release_build) (K:=K) (V:=V) (A:=A) fuel it).
Proof.
  revert it. induction fuel as [|? IH]; intros; cbn [into_iter_drain]; sim.
Qed.
Hint Resolve into_iter_drain_sim : sim.
Lemma into_iter_drop_sim it : sim (into_iter_drop (PF:=dev_build) (K:=K) (V:=V) (A:=A) it) (into_iter_drop (PF:=release_build) (K:=K) (V:=V) (A:=A) it).
Proof.
  unfold into_iter_drop. sim.
Qed.
Hint Resolve into_iter_drop_sim : sim.
Lemma tree_drop_sim t : sim (tree_drop (PF:=dev_build) (K:=K) (V:=V) (A:=A) t) (tree_drop (PF:=release_build) (K:=K) (V:=V) (A:=A) t).
Proof.
  unfold tree_drop. sim.
Qed.
Hint Resolve tree_drop_sim : sim.
Lemma clear_sim t : sim (clear (PF:=dev_build) (K:=K) (V:=V) (A:=A) t) (clear (PF:=release_build) (K:=K) (V:=V) (A:=A) t).
Proof.
  unfold clear. sim.
Qed.
Hint Resolve clear_sim : sim.
Lemma iter_rcollect_sim fuel T it : sim (iter_rcollect (PF:=dev_build) (K:=K) (V:=V) (A:=A) fuel T it) (iter_rcollect (PF:=release_build) (K:=K) (V:=V) (A:=A) fuel T it).
Proof.
  revert T it. induction fuel as [|? IH]; intros; cbn [iter_rcollect]; sim.
Qed.
Hint Resolve iter_rcollect_sim : sim.
Lemma entries_rev_sim T : sim (entries_rev (PF:=dev_build) (K:=K) (V:=V) (A:=A) T) (entries_rev (PF:=release_build) (K:=K) (V:=V) (A:=A) T).
Proof.
  unfold entries_rev. sim.
Qed.
Hint Resolve entries_rev_sim : sim.
Lemma iter_drive_sim T it ends : sim (iter_drive (PF:=dev_build) (K:=K) (V:=V) (A:=A) T it ends) (iter_drive (PF:=release_build) (K:=K) (V:=V) (A:=A) T it ends).
Proof.
  revert T it. induction ends as [|? ? IH]; intros; cbn [iter_drive]; sim.
Qed.
Hint Resolve iter_drive_sim : sim.
Lemma into_drive_sim it ends : sim (into_drive (PF:=dev_build) (K:=K) (V:=V) (A:=A) it ends) (into_drive (PF:=release_build) (K:=K) (V:=V) (A:=A) it ends).
Proof.
  revert it. induction ends as [|? ? IH]; intros; cbn [into_drive]; sim.
Qed.
Hint Resolve into_drive_sim : sim.
Lemma bulk_leaves_sim fuel s data prev nodes count : sim (bulk_leaves (PF:=dev_build) (K:=K) (V:=V) (A:=A) fuel s data prev nodes count) (bulk_leaves (PF:=release_build) (K:=K) (V:=V) (A:=A) fuel s data prev nodes count).
Proof.
  revert s data prev nodes count. induction fuel as [|? IH]; intros; cbn [bulk_leaves]; sim.
Qed.
Hint Resolve bulk_leaves_sim : sim.
Lemma bulk_load_sim data : sim (bulk_load (PF:=dev_build) (K:=K) (V:=V) (A:=A) data) (bulk_load (PF:=release_build) (K:=K) (V:=V) (A:=A) data).
Proof.
  unfold bulk_load. sim.
Qed.
Hint Resolve bulk_load_sim : sim.
Lemma from_iter_sim items : sim (from_iter (PF:=dev_build) (K:=K) (V:=V) (A:=A) items) (from_iter (PF:=release_build) (K:=K) (V:=V) (A:=A) items).
Proof.
  unfold from_iter. sim.
Qed.
Hint Resolve from_iter_sim : sim.
Lemma cursor_last_with_value_sim t : sim (cursor_last_with_value (PF:=dev_build) (K:=K) (V:=V) (A:=A) t) (cursor_last_with_value (PF:=release_build) (K:=K) (V:=V) (A:=A) t).
Proof.
  unfold cursor_last_with_value. sim.
Qed.
Hint Resolve cursor_last_with_value_sim : sim.
Lemma cursor_locate_leaf_sim t c : sim (cursor_locate_leaf (PF:=dev_build) (K:=K) (V:=V) (A:=A) t c) (cursor_locate_leaf (PF:=release_build) (K:=K) (V:=V) (A:=A) t c).
Proof.
  unfold cursor_locate_leaf. sim.
Qed.
Hint Resolve cursor_locate_leaf_sim : sim.
Lemma cursor_prev_with_value_sim t c : sim (cursor_prev_with_value (PF:=dev_build) (K:=K) (V:=V) (A:=A) t c) (cursor_prev_with_value (PF:=release_build) (K:=K) (V:=V) (A:=A) t c).
Proof.
  unfold cursor_prev_with_value. sim.
Qed.
Hint Resolve cursor_prev_with_value_sim : sim.
Lemma cursor_next_with_value_sim t c : sim (cursor_next_with_value (PF:=dev_build) (K:=K) (V:=V) (A:=A) t c) (cursor_next_with_value (PF:=release_build) (K:=K) (V:=V) (A:=A) t c).
Proof.
  unfold cursor_next_with_value. sim.
Qed.
Hint Resolve cursor_next_with_value_sim : sim.
Lemma cursor_prev_sim t c : sim (cursor_prev (PF:=dev_build) (K:=K) (V:=V) (A:=A) t c) (cursor_prev (PF:=release_build) (K:=K) (V:=V) (A:=A) t c).
Proof.
  unfold cursor_prev. sim.
Qed.
Hint Resolve cursor_prev_sim : sim.
Lemma cursor_next_sim t c : sim (cursor_next (PF:=dev_build) (K:=K) (V:=V) (A:=A) t c) (cursor_next (PF:=release_build) (K:=K) (V:=V) (A:=A) t c).
Proof.
  unfold cursor_next. sim.
Qed.
Hint Resolve cursor_next_sim : sim.
Lemma cursor_value_sim t c : sim (cursor_value (PF:=dev_build) (K:=K) (V:=V) (A:=A) t c) (cursor_value (PF:=release_build) (K:=K) (V:=V) (A:=A) t c).
Proof.
  unfold cursor_value. sim.
Qed.
Hint Resolve cursor_value_sim : sim.
Lemma cursor_exists_sim t c : sim (cursor_exists (PF:=dev_build) (K:=K) (V:=V) (A:=A) t c) (cursor_exists (PF:=release_build) (K:=K) (V:=V) (A:=A) t c).
Proof.
  unfold cursor_exists. sim.
Qed.
Hint Resolve cursor_exists_sim : sim.
Lemma remove_by_augmentation_sim {SO : SearchOps K V A Q} t q : sim (remove_by_augmentation (PF:=dev_build) (K:=K) (V:=V) (A:=A) (Q:=Q) (SO:=SO) t q) (remove_by_augmentation (PF:=release_build) (K:=K) (V:=V) (A:=A) (Q:=Q) (SO:=SO) t q).
Proof.
  unfold remove_by_augmentation. sim.
Qed.
Hint Resolve remove_by_augmentation_sim : sim.
Lemma begin_sim b : sim (begin (PF:=dev_build) (K:=K) (V:=V) (A:=A) b) (begin (PF:=release_build) (K:=K) (V:=V) (A:=A) b).
Proof.
  unfold begin. sim.
Qed.
Hint Resolve begin_sim : sim.
Lemma step_sim T o : sim (step (PF:=dev_build) (K:=K) (V:=V) (A:=A) T o) (step (PF:=release_build) (K:=K) (V:=V) (A:=A) T o).
Proof.
  unfold step. sim.
Qed.
Hint Resolve step_sim : sim.
Lemma run_sim T ops : sim (run (PF:=dev_build) (K:=K) (V:=V) (A:=A) T ops) (run (PF:=release_build) (K:=K) (V:=V) (A:=A) T ops).
Proof.
  revert T. induction ops as [|? ? IH]; intros; cbn [run]; sim.
Qed.
Hint Resolve run_sim : sim.
Lemma exec_sim b ops : sim (exec (PF:=dev_build) (K:=K) (V:=V) (A:=A) b ops) (exec (PF:=release_build) (K:=K) (V:=V) (A:=A) b ops).
Proof.
  unfold exec. sim.
Qed.
Hint Resolve exec_sim : sim.
End Release.
#[local] Hint Resolve usize_pred_sim slice_insert_sim slice_remove_sim leaf_key_range_sim leaf_in_range_sim leaf_try_upsert_sim leaf_split_new_leaf_sim leaf_delete_at_sim leaf_try_delete_at_sim leaf_pop_sim leaf_pop_front_sim leaf_delete_with_push_sim leaf_delete_with_push_front_sim leaf_take_data_sim inner_insert_at_sim inner_split_sim inner_remove_slot_with_right_sim inner_merge_next_sim inner_pop_sim inner_pop_front_sim inner_push_front_sim check_cache_sim try_cache_sim insert_leaf_sim insert_ascend_sim insert_inner_sim descend_insert_sim insert_sim get_sim get_mut_sim last_sim locate_leaf_sim try_rotate_right_for_inner_node_sim try_rotate_left_for_inner_node_sim merge_inner_node_sim handle_inner_under_size_sim rotate_right_for_leaf_node_sim rotate_left_for_leaf_node_sim merge_leaf_node_left_sim merge_leaf_node_with_right_sim handle_leaf_under_size_sim remove_ascend_sim remove_by_ref_sim remove_impl_sim remove_sim iter_next_back_sim into_iter_next_loop_sim into_iter_next_sim into_iter_next_back_loop_sim into_iter_next_back_sim into_iter_drain_sim into_iter_drop_sim tree_drop_sim clear_sim iter_rcollect_sim entries_rev_sim iter_drive_sim into_drive_sim bulk_leaves_sim bulk_load_sim from_iter_sim cursor_last_with_value_sim cursor_locate_leaf_sim cursor_prev_with_value_sim cursor_next_with_value_sim cursor_prev_sim cursor_next_sim cursor_value_sim cursor_exists_sim remove_by_augmentation_sim begin_sim step_sim run_sim exec_sim : sim.

Section ReleaseSet.
Context {K : Type} {KO : KeyOps K}.
Lemma set_insert_sim t k : sim (set_insert (PF:=dev_build) (K:=K) t k) (set_insert (PF:=release_build) (K:=K) t k).
Proof.
  unfold set_insert, set_tree in *. sim.
Qed.
Hint Resolve set_insert_sim : sim.
Lemma set_remove_sim t p : sim (set_remove (PF:=dev_build) (K:=K) t p) (set_remove (PF:=release_build) (K:=K) t p).
Proof.
  unfold set_remove, set_tree in *. sim.
Qed.
Hint Resolve set_remove_sim : sim.
Lemma set_contains_sim t p : sim (set_contains (PF:=dev_build) (K:=K) t p) (set_contains (PF:=release_build) (K:=K) t p).
Proof.
  unfold set_contains, set_tree in *. sim.
Qed.
Hint Resolve set_contains_sim : sim.
Lemma set_last_sim t : sim (set_last (PF:=dev_build) (K:=K) t) (set_last (PF:=release_build) (K:=K) t).
Proof.
  unfold set_last, set_tree in *. sim.
Qed.
Hint Resolve set_last_sim : sim.
Lemma set_clear_sim t : sim (set_clear (PF:=dev_build) (K:=K) t) (set_clear (PF:=release_build) (K:=K) t).
Proof.
  unfold set_clear, set_tree in *. sim.
Qed.
Hint Resolve set_clear_sim : sim.
Lemma set_iter_next_back_sim t it : sim (set_iter_next_back (PF:=dev_build) (K:=K) t it) (set_iter_next_back (PF:=release_build) (K:=K) t it).
Proof.
  unfold set_iter_next_back, set_tree in *. sim.
Qed.
Hint Resolve set_iter_next_back_sim : sim.
Lemma set_from_iter_sim ks : sim (set_from_iter (PF:=dev_build) (K:=K) ks) (set_from_iter (PF:=release_build) (K:=K) ks).
Proof.
  unfold set_from_iter, set_tree in *. sim.
Qed.
Hint Resolve set_from_iter_sim : sim.
Lemma set_into_next_sim it : sim (set_into_next (PF:=dev_build) (K:=K) it) (set_into_next (PF:=release_build) (K:=K) it).
Proof.
  unfold set_into_next, set_tree in *. sim.
Qed.
Hint Resolve set_into_next_sim : sim.
Lemma set_into_next_back_sim it : sim (set_into_next_back (PF:=dev_build) (K:=K) it) (set_into_next_back (PF:=release_build) (K:=K) it).
Proof.
  unfold set_into_next_back, set_tree in *. sim.
Qed.
Hint Resolve set_into_next_back_sim : sim.
Lemma set_collect_sim fuel fwd T it : sim (set_collect (PF:=dev_build) (K:=K) fuel fwd T it) (set_collect (PF:=release_build) (K:=K) fuel fwd T it).
Proof.
  revert fwd T it. induction fuel as [|? IH]; intros; cbn [set_collect]; sim.
Qed.
Hint Resolve set_collect_sim : sim.
Lemma set_keys_sim fwd T : sim (set_keys (PF:=dev_build) (K:=K) fwd T) (set_keys (PF:=release_build) (K:=K) fwd T).
Proof.
  unfold set_keys. sim.
Qed.
Hint Resolve set_keys_sim : sim.
Lemma set_begin_sim b : sim (set_begin (PF:=dev_build) (K:=K) b) (set_begin (PF:=release_build) (K:=K) b).
Proof.
  unfold set_begin. destruct b; [sim|apply set_from_iter_sim].
Qed.
Hint Resolve set_begin_sim : sim.
Lemma set_step_sim T o : sim (set_step (PF:=dev_build) (K:=K) T o) (set_step (PF:=release_build) (K:=K) T o).
Proof.
  unfold set_step. sim.
Qed.
Hint Resolve set_step_sim : sim.
Lemma set_run_sim T ops : sim (set_run (PF:=dev_build) (K:=K) T ops) (set_run (PF:=release_build) (K:=K) T ops).
Proof.
  revert T. induction ops as [|? ? IH]; intros; cbn [set_run]; sim.
Qed.
Hint Resolve set_run_sim : sim.
Lemma set_into_drive_sim it ends : sim (set_into_drive (PF:=dev_build) (K:=K) it ends) (set_into_drive (PF:=release_build) (K:=K) it ends).
Proof.
  revert it. induction ends as [|? ? IH]; intros; cbn [set_into_drive]; sim.
Qed.
Hint Resolve set_into_drive_sim : sim.
End ReleaseSet.

Section Calls.
Context {K V A Q : Type} {KO : KeyOps K} {AO : AugOps K V A} {SO : SearchOps K V A Q}.
Lemma calls_same (T : tree K V A) (it : iter) (into : into_iter K V A) (c : cursor K) (p : probe K) (q : Q) (ends : list bool) :
  sim (get (PF:=dev_build) T p) (get (PF:=release_build) T p) /\
  sim (last (PF:=dev_build) T) (last (PF:=release_build) T) /\
  sim (iter_drive (PF:=dev_build) T it ends) (iter_drive (PF:=release_build) T it ends) /\
  sim (into_drive (PF:=dev_build) into ends) (into_drive (PF:=release_build) into ends) /\
  sim (into_iter_drop (PF:=dev_build) into) (into_iter_drop (PF:=release_build) into) /\
  sim (tree_drop (PF:=dev_build) T) (tree_drop (PF:=release_build) T) /\
  sim (cursor_last_with_value (PF:=dev_build) T) (cursor_last_with_value (PF:=release_build) T) /\
  sim (cursor_next_with_value (PF:=dev_build) T c) (cursor_next_with_value (PF:=release_build) T c) /\
  sim (cursor_prev_with_value (PF:=dev_build) T c) (cursor_prev_with_value (PF:=release_build) T c) /\
  sim (cursor_value (PF:=dev_build) T c) (cursor_value (PF:=release_build) T c) /\
  sim (remove_by_augmentation (PF:=dev_build) T q) (remove_by_augmentation (PF:=release_build) T q).
Proof.
  split_and!; [apply get_sim|apply last_sim|apply iter_drive_sim|apply into_drive_sim|apply into_iter_drop_sim|apply tree_drop_sim
    |apply cursor_last_with_value_sim|apply cursor_next_with_value_sim|apply cursor_prev_with_value_sim|apply cursor_value_sim
    |apply remove_by_augmentation_sim].
Qed.
Lemma set_calls_same (b : set_start K) (T : set_tree K) (ops : list (set_op K)) (it : into_iter K unit unit) (ends : list bool) :
  sim (set_begin (PF:=dev_build) b) (set_begin (PF:=release_build) b) /\
  sim (set_run (PF:=dev_build) T ops) (set_run (PF:=release_build) T ops) /\
  sim (set_into_drive (PF:=dev_build) it ends) (set_into_drive (PF:=release_build) it ends).
Proof. split_and!; [apply set_begin_sim|apply set_run_sim|apply set_into_drive_sim]. Qed.
End Calls.
