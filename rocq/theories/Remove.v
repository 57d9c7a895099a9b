(** src/tree/tree_remove.rs.

    The Rust code holds a [&mut InnerNode] (from a raw pointer) to the parent
    while it mutates the children through the store.  The model passes the
    parent as a value and writes it back at the end; the two agree because the
    children are different nodes (part of the proved invariant). *)
From stdpp Require Import list.
From Verif Require Import Base Slots BinSearch LeafNode InnerNode Store Tree.

(** tree_remove.rs:452-457 [FixAction] *)
Inductive fix_action := FxRotateRight | FxRotateLeft | FxMergeLeft | FxMergeRight.

(** tree_remove.rs:460-466 [DeleteDescendResult] *)
Inductive delete_result (K V : Type) :=
| DrDone (kv : K * V)
| DrInnerUnderSize (kv : K * V)
| DrLeafUnderSize (idx : nat).
Arguments DrDone {K V}. Arguments DrInnerUnderSize {K V}. Arguments DrLeafUnderSize {K V}.

(** [self.st.<field> += 1] *)
Definition st_rotate_right_inner (s : statistic) : statistic :=
  mkStat (S (rotate_right_inner s)) (rotate_left_inner s) (merge_with_left_inner s)
    (merge_with_right_inner s) (rotate_right_leaf s) (rotate_left_leaf s)
    (merge_with_left_leaf s) (merge_with_right_leaf s).
Definition st_rotate_left_inner (s : statistic) : statistic :=
  mkStat (rotate_right_inner s) (S (rotate_left_inner s)) (merge_with_left_inner s)
    (merge_with_right_inner s) (rotate_right_leaf s) (rotate_left_leaf s)
    (merge_with_left_leaf s) (merge_with_right_leaf s).
Definition st_merge_with_left_inner (s : statistic) : statistic :=
  mkStat (rotate_right_inner s) (rotate_left_inner s) (S (merge_with_left_inner s))
    (merge_with_right_inner s) (rotate_right_leaf s) (rotate_left_leaf s)
    (merge_with_left_leaf s) (merge_with_right_leaf s).
Definition st_merge_with_right_inner (s : statistic) : statistic :=
  mkStat (rotate_right_inner s) (rotate_left_inner s) (merge_with_left_inner s)
    (S (merge_with_right_inner s)) (rotate_right_leaf s) (rotate_left_leaf s)
    (merge_with_left_leaf s) (merge_with_right_leaf s).
Definition st_rotate_right_leaf (s : statistic) : statistic :=
  mkStat (rotate_right_inner s) (rotate_left_inner s) (merge_with_left_inner s)
    (merge_with_right_inner s) (S (rotate_right_leaf s)) (rotate_left_leaf s)
    (merge_with_left_leaf s) (merge_with_right_leaf s).
Definition st_rotate_left_leaf (s : statistic) : statistic :=
  mkStat (rotate_right_inner s) (rotate_left_inner s) (merge_with_left_inner s)
    (merge_with_right_inner s) (rotate_right_leaf s) (S (rotate_left_leaf s))
    (merge_with_left_leaf s) (merge_with_right_leaf s).
Definition st_merge_with_left_leaf (s : statistic) : statistic :=
  mkStat (rotate_right_inner s) (rotate_left_inner s) (merge_with_left_inner s)
    (merge_with_right_inner s) (rotate_right_leaf s) (rotate_left_leaf s)
    (S (merge_with_left_leaf s)) (merge_with_right_leaf s).
Definition st_merge_with_right_leaf (s : statistic) : statistic :=
  mkStat (rotate_right_inner s) (rotate_left_inner s) (merge_with_left_inner s)
    (merge_with_right_inner s) (rotate_right_leaf s) (rotate_left_leaf s)
    (merge_with_left_leaf s) (S (merge_with_right_leaf s)).

Section Remove.
Context {K V A : Type} {KO : KeyOps K} {PF : Profile} {AO : AugOps K V A}.
Notation store := (store K V A).
Notation tree := (tree K V A).
Notation inner := (inner K A).

(** [S::Augmentation::from_leaf(n.keys(), n.values())] *)
Definition leaf_aug (n : leaf K V) : outcome A :=
  let! ks := leaf_keys n in
  let! vs := leaf_values n in
  Ok (from_leaf ks vs).

(** [S::Augmentation::from_inner(n.keys(), n.augmentations())] *)
Definition inner_aug (n : inner) : outcome A :=
  let! ks := inner_keys n in
  let! aus := inner_augmentations n in
  Ok (from_inner (V:=V) ks aus).

(** tree_remove.rs:235-267 [try_rotate_right_for_inner_node]; the boolean tells
    [Some(())] from [None] *)
Definition try_rotate_right_for_inner_node (s : store) (node : inner) (slot : nat)
  : outcome (bool * store * inner) :=
  let! c1 := inner_child_id node (slot + 1) in
  let! right_id := inner_id_unchecked c1 in
  let! c0 := inner_child_id node slot in
  let! left_id := inner_id_unchecked c0 in
  let! prev := get_inner s left_id in
  if inner_able_to_lend prev then
    let! '((k, c, a), prev) := inner_pop prev in
    let s := put_inner s left_id prev in
    let! left_a := inner_aug prev in
    let! '(slot_key, node) := inner_set_key node slot k in
    let! rgt := get_inner s right_id in
    let! rgt := inner_push_front rgt slot_key c a in
    let s := put_inner s right_id rgt in
    let! right_a := inner_aug rgt in
    let! node := inner_set_augmentation node slot left_a in
    let! node := inner_set_augmentation node (slot + 1) right_a in
    Ok (true, s, node)
  else Ok (false, s, node).

(** tree_remove.rs:269-302 [try_rotate_left_for_inner_node] *)
Definition try_rotate_left_for_inner_node (s : store) (node : inner) (slot : nat)
  : outcome (bool * store * inner) :=
  let! c1 := inner_child_id node (slot + 1) in
  let! right_id := inner_id_unchecked c1 in
  let! c0 := inner_child_id node slot in
  let! left_id := inner_id_unchecked c0 in
  let! rgt := get_inner s right_id in
  if inner_able_to_lend rgt then
    let! '((k, c, m), rgt) := inner_pop_front rgt in
    let s := put_inner s right_id rgt in
    let! right_a := inner_aug rgt in
    let! '(slot_key, node) := inner_set_key node slot k in
    let! lft := get_inner s left_id in
    let! lft := inner_push lft slot_key c m in
    let s := put_inner s left_id lft in
    let! left_a := inner_aug lft in
    let! node := inner_set_augmentation node slot left_a in
    let! node := inner_set_augmentation node (slot + 1) right_a in
    Ok (true, s, node)
  else Ok (false, s, node).

(** tree_remove.rs:304-330 [merge_inner_node]; the emptied right node is dropped
    at the end of the function *)
Definition merge_inner_node (s : store) (node : inner) (slot : nat)
  : outcome (inner_merge_result * store * inner) :=
  debug_assert (slot < i_size node) in
    let! c0 := inner_child_id node slot in
    let! left_id := inner_id_unchecked c0 in
    let! c1 := inner_child_id node (slot + 1) in
    let! right_id := inner_id_unchecked c1 in
    let! '(result, slot_key, node) := inner_remove_slot_with_right node slot in
    let! '(rgt, s) := take_inner s right_id in
    let! lft := get_inner s left_id in
    let! '(lft, rgt) := inner_merge_next lft slot_key rgt in
    let s := put_inner s left_id lft in
    let! a := inner_aug lft in
    let! node := inner_set_augmentation node slot a in
    let! _ := inner_drop (aug_needs_drop (K:=K) (V:=V) (A:=A)) rgt in
    Ok (result, s, node).

(** tree_remove.rs:97-129 [handle_inner_under_size] *)
Definition handle_inner_under_size (s : store) (st : statistic) (node : inner)
    (child_idx : nat) (kv : K * V)
  : outcome (delete_result K V * store * statistic * inner) :=
  let! '(done1, s, node) :=
    if decide (0 < child_idx) then try_rotate_right_for_inner_node s node (child_idx - 1)
    else Ok (false, s, node) in
  if (done1 : bool) then Ok (DrDone kv, s, st_rotate_right_inner st, node) else
  let! '(done2, s, node) :=
    if decide (child_idx < i_size node) then try_rotate_left_for_inner_node s node child_idx
    else Ok (false, s, node) in
  if (done2 : bool) then Ok (DrDone kv, s, st_rotate_left_inner st, node) else
  let '(merge_slot, st) :=
    if decide (0 < child_idx) then (child_idx - 1, st_merge_with_left_inner st)
    else (child_idx, st_merge_with_right_inner st) in
  let! '(r, s, node) := merge_inner_node s node merge_slot in
  match r with
  | MergeDone => Ok (DrDone kv, s, st, node)
  | MergeUnderSize => Ok (DrInnerUnderSize kv, s, st, node)
  end.

(** tree_remove.rs:332-361 [rotate_right_for_leaf] *)
Definition rotate_right_for_leaf_node (s : store) (node : inner) (slot delete_idx : nat)
  : outcome ((K * V) * store * inner) :=
  let! c0 := inner_child_id node slot in
  let! left_id := leaf_id_unchecked c0 in
  let! c1 := inner_child_id node (slot + 1) in
  let! right_id := leaf_id_unchecked c1 in
  let! lft := get_leaf s left_id in
  debug_assert_is (leaf_able_to_lend lft) in
    let! '(kv, lft) := leaf_pop lft in
    let s := put_leaf s left_id lft in
    let! la := leaf_aug lft in
    let! node := inner_set_augmentation node slot la in
    let new_slot_key := fst kv in
    let! rgt := get_leaf s right_id in
    let! '(deleted, rgt) := leaf_delete_with_push_front rgt delete_idx kv in
    let s := put_leaf s right_id rgt in
    let! ra := leaf_aug rgt in
    let! node := inner_set_augmentation node (slot + 1) ra in
    let s := cache_leaf s right_id in
    let! '(_, node) := inner_set_key node slot new_slot_key in
    Ok (deleted, s, node).

(** tree_remove.rs:363-391 [rotate_left_for_leaf] *)
Definition rotate_left_for_leaf_node (s : store) (parent : inner) (slot delete_idx : nat)
  : outcome ((K * V) * store * inner) :=
  let! c0 := inner_child_id parent slot in
  let! left_id := leaf_id_unchecked c0 in
  let! c1 := inner_child_id parent (slot + 1) in
  let! right_id := leaf_id_unchecked c1 in
  let! rgt := get_leaf s right_id in
  debug_assert_is (leaf_able_to_lend rgt) in
    let! '(kv, rgt) := leaf_pop_front rgt in
    let s := put_leaf s right_id rgt in
    let! ra := leaf_aug rgt in
    let! parent := inner_set_augmentation parent (slot + 1) ra in
    let! '(new_slot_key, _) := leaf_data_at rgt 0 in
    let! lft := get_leaf s left_id in
    let! '(deleted, lft) := leaf_delete_with_push lft delete_idx kv in
    let s := put_leaf s left_id lft in
    let! la := leaf_aug lft in
    let! parent := inner_set_augmentation parent slot la in
    let! '(_, parent) := inner_set_key parent slot new_slot_key in
    Ok (deleted, cache_leaf s left_id, parent).

(** tree_remove.rs:407-409, 436-438: fix the [prev] link of the leaf after the
    merged one *)
Definition fix_next_prev (s : store) (lft : leaf K V) (left_id : nat) : outcome store :=
  match l_next lft with
  | Some next =>
      let! nl := get_leaf s next in
      Ok (put_leaf s next (leaf_set_prev nl (Some left_id)))
  | None => Ok s
  end.

(** tree_remove.rs:411-414, 441-444 *)
Definition merge_result_to_delete (r : inner_merge_result) (kv : K * V) : delete_result K V :=
  match r with
  | MergeDone => DrDone kv
  | MergeUnderSize => DrInnerUnderSize kv
  end.

(** tree_remove.rs:393-418 [merge_leaf_node_left]; the emptied right leaf ends with
    the function *)
Definition merge_leaf_node_left (s : store) (parent : inner) (slot delete_idx : nat)
  : outcome (delete_result K V * store * inner) :=
  let! c0 := inner_child_id parent slot in
  let! left_id := leaf_id_unchecked c0 in
  let! c1 := inner_child_id parent (slot + 1) in
  let! right_id := leaf_id_unchecked c1 in
  let! '(rgt, s) := take_leaf s right_id in
  let! lft := get_leaf s left_id in
  let! '(kv, lft, rgt) := leaf_merge_right_delete_first lft delete_idx rgt in
  let s := put_leaf s left_id lft in
  let! a := leaf_aug lft in
  let! parent := inner_set_augmentation parent slot a in
  let! s := fix_next_prev s lft left_id in
  let! '(r, _, parent) := inner_remove_slot_with_right parent slot in
  let! _ := leaf_drop rgt in
  Ok (merge_result_to_delete r kv, cache_leaf s left_id, parent).

(** tree_remove.rs:420-447 [merge_leaf_node_with_right] *)
Definition merge_leaf_node_with_right (s : store) (parent : inner) (slot delete_idx : nat)
  : outcome (delete_result K V * store * inner) :=
  let! c0 := inner_child_id parent slot in
  let! left_id := leaf_id_unchecked c0 in
  let! c1 := inner_child_id parent (slot + 1) in
  let! right_id := leaf_id_unchecked c1 in
  let! '(rgt, s) := take_leaf s right_id in
  let! lft := get_leaf s left_id in
  let! '(kv, lft) := leaf_delete_at lft delete_idx in
  let! '(lft, rgt) := leaf_merge_right lft rgt in
  let s := put_leaf s left_id lft in
  let! a := leaf_aug lft in
  let! parent := inner_set_augmentation parent slot a in
  let! s := fix_next_prev s lft left_id in
  let! '(r, _, parent) := inner_remove_slot_with_right parent slot in
  let! _ := leaf_drop rgt in
  Ok (merge_result_to_delete r kv, cache_leaf s left_id, parent).

(** tree_remove.rs:154-187: choice of the action *)
Definition choose_fix_action (prev next : option (leaf K V)) : outcome fix_action :=
  match prev, next with
  | Some p, Some n =>
      if leaf_able_to_lend p then
        if leaf_able_to_lend n then
          if decide (l_size n < l_size p) then Ok FxRotateRight else Ok FxRotateLeft
        else Ok FxRotateRight
      else if leaf_able_to_lend n then Ok FxRotateLeft
      else Ok FxMergeLeft
  | Some p, None => if leaf_able_to_lend p then Ok FxRotateRight else Ok FxMergeLeft
  | None, Some n => if leaf_able_to_lend n then Ok FxRotateLeft else Ok FxMergeRight
  | None, None => Panic
  end.

(** tree_remove.rs:131-233 [handle_leaf_under_size] *)
Definition handle_leaf_under_size (s : store) (st : statistic) (node : inner)
    (child_idx key_idx : nat)
  : outcome (delete_result K V * store * statistic * inner) :=
  let! prev :=
    if decide (0 < child_idx) then
      let! c := inner_child_id node (child_idx - 1) in
      let! id := leaf_id_unchecked c in
      let! n := get_leaf s id in Ok (Some n)
    else Ok None in
  let! next :=
    if decide (child_idx < i_size node) then
      let! c := inner_child_id node (child_idx + 1) in
      let! id := leaf_id_unchecked c in
      let! n := get_leaf s id in Ok (Some n)
    else Ok None in
  let! action := choose_fix_action prev next in
  match action with
  | FxRotateRight =>
      let! '(kv, s, node) := rotate_right_for_leaf_node s node (child_idx - 1) key_idx in
      Ok (DrDone kv, s, st_rotate_right_leaf st, node)
  | FxRotateLeft =>
      let! '(kv, s, node) := rotate_left_for_leaf_node s node child_idx key_idx in
      Ok (DrDone kv, s, st_rotate_left_leaf st, node)
  | FxMergeLeft =>
      let! '(r, s, node) := merge_leaf_node_left s node (child_idx - 1) key_idx in
      Ok (r, s, st_merge_with_left_leaf st, node)
  | FxMergeRight =>
      let! '(r, s, node) := merge_leaf_node_with_right s node child_idx key_idx in
      Ok (r, s, st_merge_with_right_leaf st, node)
  end.

(** tree_remove.rs:36-60: the loop popping the visit stack *)
Fixpoint remove_ascend (stack : visit_stack) (s : store) (st : statistic)
    (r : delete_result K V) : outcome (delete_result K V * store * statistic) :=
  match stack with
  | [] => Ok (r, s, st)
  | (parent_id, child_idx, child_id) :: stack' =>
      match r with
      | DrDone kv =>
          let! ca := new_augmentation_for_id s child_id in
          let! n := get_inner s parent_id in
          let! n := inner_set_augmentation n child_idx ca in
          remove_ascend stack' (put_inner s parent_id n) st r
      | DrInnerUnderSize kv =>
          let! n := get_inner s parent_id in
          let! '(r, s, st, n) := handle_inner_under_size s st n child_idx kv in
          remove_ascend stack' (put_inner s parent_id n) st r
      | DrLeafUnderSize idx =>
          let! n := get_inner s parent_id in
          let! '(r, s, st, n) := handle_leaf_under_size s st n child_idx idx in
          remove_ascend stack' (put_inner s parent_id n) st r
      end
  end.

(** tree_remove.rs:18-95 [remove_by_ref].  It always returns [Some] in Rust. *)
Definition remove_by_ref (t : tree) (stack : visit_stack) (leaf_id offset : nat)
  : outcome ((K * V) * tree) :=
  let s := t_store t in
  let! n := get_leaf s leaf_id in
  let! '(r, n) := leaf_try_delete_at n offset in
  let s := put_leaf s leaf_id n in
  let r := match r with
           | DelDone kv => DrDone kv
           | DelUnderSize idx => DrLeafUnderSize idx
           end in
  let! '(r, s, st) := remove_ascend stack s (t_st t) r in
  let! '(kv, root, s) :=
    match r with
    | DrDone kv => Ok (kv, t_root t, s)
    | DrInnerUnderSize kv =>
        let! rid := inner_id_unchecked (t_root t) in
        let! root := get_inner s rid in
        if decide (i_size root = 0) then
          let! c := inner_child_id root 0 in Ok (kv, c, s)
        else Ok (kv, t_root t, s)
    | DrLeafUnderSize idx =>
        let! lid := leaf_id_unchecked (t_root t) in
        let! l := get_leaf s lid in
        let! '(kv, l) := leaf_delete_at l idx in
        Ok (kv, t_root t, put_leaf s lid l)
    end in
  let! a := new_augmentation_for_id s root in
  let! len := usize_pred (t_len t) in
  Ok (kv, mkTree root a len s st).

(** tree_remove.rs:8-16 [remove_impl] *)
Definition remove_impl (t : tree) (p : probe K) : outcome (option (K * V) * tree) :=
  let! r := key_to_ref t p in
  match r with
  | None => Ok (None, t)
  | Some (stack, leaf_id, offset) =>
      let! '(kv, t) := remove_by_ref t stack leaf_id offset in
      Ok (Some kv, t)
  end.

(** mod.rs:498-504 [remove] *)
Definition remove (t : tree) (p : probe K) : outcome (option V * tree) :=
  let! '(r, t) := remove_impl t p in
  Ok (match r with Some kv => Some (snd kv) | None => None end, t).

End Remove.
