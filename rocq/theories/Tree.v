(** src/tree/mod.rs and src/tree/entry_ref.rs: [BPlusTree] except removal,
    iterators, cursors and bulk loading. *)
From stdpp Require Import list.
From Verif Require Import Base Slots BinSearch LeafNode InnerNode Store.

(** mod.rs:835-847 [Statistic] *)
Record statistic := mkStat {
  rotate_right_inner : nat;
  rotate_left_inner : nat;
  merge_with_left_inner : nat;
  merge_with_right_inner : nat;
  rotate_right_leaf : nat;
  rotate_left_leaf : nat;
  merge_with_left_leaf : nat;
  merge_with_right_leaf : nat;
}.
Definition stat_default : statistic := mkStat 0 0 0 0 0 0 0 0.

(** mod.rs:87-93 [BPlusTree] *)
Record tree (K V A : Type) := mkTree {
  t_root : node_id;
  t_aug : A;
  t_len : nat;
  t_store : store K V A;
  t_st : statistic;
}.
Arguments mkTree {K V A}.
Arguments t_root {K V A}. Arguments t_aug {K V A}. Arguments t_len {K V A}.
Arguments t_store {K V A}. Arguments t_st {K V A}.

(** entry_ref.rs:27-33 [VisitStack], newest entry first.
    An entry is (inner node id, child offset, child id). *)
Definition visit_stack := list (nat * nat * node_id).

(** entry_ref.rs:56-67 [push].  [pop] (69-83) is taking the head of the list. *)
Definition stack_push (st : visit_stack) (id off : nat) (c : node_id) : outcome visit_stack :=
  if decide (length st < MAX_DEPTH) then Ok ((id, off, c) :: st) else Panic.

(** mod.rs:849-856 [DescendInsertResult] *)
Inductive insert_result (K V : Type) :=
| IrUpdated (v : V)
| IrInserted
| IrSplit (k : K) (c : node_id).
Arguments IrUpdated {K V}. Arguments IrInserted {K V}. Arguments IrSplit {K V}.

Section Tree.
Context {K V A : Type} {KO : KeyOps K} {PF : Profile} {AO : AugOps K V A}.
Notation store := (store K V A).
Notation tree := (tree K V A).

Definition with_store (t : tree) (s : store) : tree :=
  mkTree (t_root t) (t_aug t) (t_len t) s (t_st t).

(** mod.rs:100-110 [new], called with an empty store (map.rs:32, set.rs:26) *)
Definition tree_new : tree :=
  let '(id, s) := new_empty_leaf store_default in
  mkTree (NLeaf id) (aug_default (V:=V)) 0 s stat_default.

(** Fuel for loops that walk down through inner nodes: one more than the number
    of inner nodes ever allocated. *)
Definition descend_fuel (s : store) : nat := S (length (inners s)).

(** mod.rs:298-309 [new_augmentation_for_id] *)
Definition new_augmentation_for_id (s : store) (id : node_id) : outcome A :=
  match id with
  | NInner i =>
      let! n := get_inner s i in
      let! ks := inner_keys n in
      let! aus := inner_augmentations n in
      Ok (from_inner (V:=V) ks aus)
  | NLeaf i =>
      let! n := get_leaf s i in
      let! ks := leaf_keys n in
      let! vs := leaf_values n in
      Ok (from_leaf ks vs)
  end.

(** mod.rs:113-133 [new_from_parts] (the [validate] call is test-only) *)
Definition new_from_parts (s : store) (root : node_id) (len : nat) : outcome tree :=
  let! a := if decide (0 < len) then new_augmentation_for_id s root
            else Ok (aug_default (V:=V)) in
  Ok (mkTree root a len s stat_default).

(** mod.rs:145-153 [len], [is_empty], [root_augmentation] *)
Definition is_empty (t : tree) : bool := bool_decide (t_len t = 0).

(** mod.rs:311-341 [insert_leaf] *)
Definition insert_leaf (s : store) (id : nat) (k : K) (v : V)
  : outcome (insert_result K V * store) :=
  let! n := get_leaf s id in
  let! '(r, n) := leaf_try_upsert n k v in
  let s := put_leaf s id n in
  match r with
  | UpInserted => Ok (IrInserted, cache_leaf s id)
  | UpUpdated v' => Ok (IrUpdated v', s)
  | UpIsFull idx k v =>
      let '(right_id, s) := reserve_leaf s in
      let! l := get_leaf s id in
      let! '(r_leaf, l) := leaf_split_new_leaf l idx (k, v) right_id id in
      let s := put_leaf s id l in
      let! '(slot_key, _) := leaf_data_at r_leaf 0 in
      let! s :=
        match l_next r_leaf with
        | Some next =>
            let! nl := get_leaf s next in
            Ok (put_leaf s next (leaf_set_prev nl (Some right_id)))
        | None => Ok s
        end in
      let! s := assign_leaf s right_id r_leaf in
      let updated_id := if decide (Nat.div LEAF_N 2 <= idx) then right_id else id in
      Ok (IrSplit slot_key (NLeaf right_id), cache_leaf s updated_id)
  end.

(** mod.rs:231-244, the descending loop of [insert_inner] *)
Fixpoint insert_descend (fuel : nat) (s : store) (id : nat) (k : K) (stack : visit_stack)
  : outcome (visit_stack * nat) :=
  match fuel with
  | 0 => OutOfFuel
  | S fuel' =>
      let! n := get_inner s id in
      let! '(child_idx, child_id) := inner_locate_child n (probe_key k) in
      let! stack := stack_push stack id child_idx child_id in
      match child_id with
      | NInner ci => insert_descend fuel' s ci k stack
      | NLeaf leaf_id => Ok (stack, leaf_id)
      end
  end.

(** mod.rs:246-295, the ascending loop of [insert_inner] *)
Fixpoint insert_ascend (stack : visit_stack) (s : store) (r : insert_result K V)
  : outcome (insert_result K V * store) :=
  match stack with
  | [] => Ok (r, s)
  | (id, child_idx, child_id) :: stack' =>
      match r with
      | IrSplit key right_child =>
          let! ra := new_augmentation_for_id s right_child in
          let! ca := new_augmentation_for_id s child_id in
          let! n := get_inner s id in
          let! n := inner_set_augmentation n child_idx ca in
          if negb (inner_is_full n) then
            let! n := inner_insert_at n child_idx key right_child ra in
            insert_ascend stack' (put_inner s id n) IrInserted
          else
            let! '(prompt_k, new_node, n) := inner_split n child_idx key right_child ra in
            let s := put_inner s id n in
            let '(new_id, s) := add_inner s new_node in
            insert_ascend stack' s (IrSplit prompt_k (NInner new_id))
      | IrInserted | IrUpdated _ =>
          let! ca := new_augmentation_for_id s child_id in
          let! n := get_inner s id in
          let! n := inner_set_augmentation n child_idx ca in
          insert_ascend stack' (put_inner s id n) r
      end
  end.

(** mod.rs:225-296 [insert_inner] *)
Definition insert_inner (s : store) (id : nat) (k : K) (v : V)
  : outcome (insert_result K V * store) :=
  let! '(stack, leaf_id) := insert_descend (descend_fuel s) s id k [] in
  let! '(r, s) := insert_leaf s leaf_id k v in
  insert_ascend stack s r.

(** mod.rs:213-223 [descend_insert] *)
Definition descend_insert (s : store) (node : node_id) (k : K) (v : V)
  : outcome (insert_result K V * store) :=
  match node with
  | NInner id => insert_inner s id k v
  | NLeaf id => insert_leaf s id k v
  end.

(** mod.rs:156-197 [insert] *)
Definition insert (t : tree) (k : K) (v : V) : outcome (option V * tree) :=
  let node := t_root t in
  let! '(r, s) := descend_insert (t_store t) node k v in
  match r with
  | IrInserted =>
      let! a := new_augmentation_for_id s node in
      Ok (None, mkTree node a (t_len t + 1) s (t_st t))
  | IrUpdated prev_v =>
      let! a := new_augmentation_for_id s node in
      Ok (Some prev_v, mkTree node a (t_len t) s (t_st t))
  | IrSplit key new_child =>
      let! pa := new_augmentation_for_id s node in
      let! na := new_augmentation_for_id s new_child in
      let! root := inner_new_from_iter [key] [node; new_child] [pa; na] in
      let! ks := inner_keys root in
      let! aus := inner_augmentations root in
      let a := from_inner (V:=V) ks aus in
      let '(root_id, s) := add_inner s root in
      Ok (None, mkTree (NInner root_id) a (t_len t + 1) s (t_st t))
  end.

(** mod.rs:418-433: the descent of [find_descend], also the one of
    [find_descend_mut] (444-456), [locate_leaf] (583-607) and [get_cursor]
    (637-655): follow [locate_child] to a leaf *)
Fixpoint descend_to_leaf (fuel : nat) (s : store) (node : node_id) (p : probe K)
  : outcome nat :=
  match node with
  | NLeaf id => Ok id
  | NInner id =>
      match fuel with
      | 0 => OutOfFuel
      | S fuel' =>
          let! n := get_inner s id in
          let! '(_, c) := inner_locate_child n p in
          descend_to_leaf fuel' s c p
      end
  end.

(** mod.rs:435-442 [find_in_leaf] *)
Definition find_in_leaf (s : store) (id : nat) (p : probe K) : outcome (option V) :=
  let! n := get_leaf s id in
  let! '(_, r) := leaf_locate_slot_with_value n p in
  Ok r.

(** mod.rs:344-355 [get] with [find_descend] and [find_in_leaf_and_cache_it]
    (484-495).  It changes nothing but the cache word, so it returns the tree. *)
Definition get (t : tree) (p : probe K) : outcome (option V * tree) :=
  let s := t_store t in
  let! c := try_cache s p in
  match c with
  | Some id => let! r := find_in_leaf s id p in Ok (r, t)
  | None =>
      let! id := descend_to_leaf (descend_fuel s) s (t_root t) p in
      let s := cache_leaf s id in
      let! r := find_in_leaf s id p in
      Ok (r, with_store t s)
  end.

(** mod.rs:458-465 [find_in_leaf_mut] followed by writing [f] of the value *)
Definition find_in_leaf_mut (s : store) (id : nat) (p : probe K) (f : V -> V)
  : outcome (option V * store) :=
  let! n := get_leaf s id in
  let! '(r, n) := leaf_locate_slot_mut n p f in
  Ok (r, put_leaf s id n).

(** mod.rs:357-372 [get_mut], with [find_descend_mut] (444-456) and
    [find_in_leaf_mut_and_cache_it] (467-480); the caller overwrites the value
    through the reference with [f] of it.  Returns the value before the write. *)
Definition get_mut (t : tree) (p : probe K) (f : V -> V) : outcome (option V * tree) :=
  let s := t_store t in
  let! c := try_cache s p in
  match c with
  | Some id => let! '(r, s) := find_in_leaf_mut s id p f in Ok (r, with_store t s)
  | None =>
      let! id := descend_to_leaf (descend_fuel s) s (t_root t) p in
      let s := cache_leaf s id in
      let! '(r, s) := find_in_leaf_mut s id p f in
      Ok (r, with_store t s)
  end.

(** mod.rs:535-556 [first_leaf], also the loop of [first] (375-394) *)
Fixpoint descend_first (fuel : nat) (s : store) (node : node_id) : outcome nat :=
  match node with
  | NLeaf id => Ok id
  | NInner id =>
      match fuel with
      | 0 => OutOfFuel
      | S fuel' =>
          let! n := get_inner s id in
          let! c := inner_child_id n 0 in
          descend_first fuel' s c
      end
  end.
Definition first_leaf (t : tree) : outcome nat :=
  descend_first (descend_fuel (t_store t)) (t_store t) (t_root t).

(** mod.rs:558-580 [last_leaf], also the loop of [last] (397-416) *)
Fixpoint descend_last (fuel : nat) (s : store) (node : node_id) : outcome nat :=
  match node with
  | NLeaf id => Ok id
  | NInner id =>
      match fuel with
      | 0 => OutOfFuel
      | S fuel' =>
          let! n := get_inner s id in
          let! c := inner_child_id n (i_size n) in
          descend_last fuel' s c
      end
  end.
Definition last_leaf (t : tree) : outcome nat :=
  descend_last (descend_fuel (t_store t)) (t_store t) (t_root t).

(** mod.rs:375-394 [first] *)
Definition first (t : tree) : outcome (option (K * V)) :=
  if is_empty t then Ok None else
  let! id := first_leaf t in
  let! n := get_leaf (t_store t) id in
  let! kv := leaf_data_at n 0 in
  Ok (Some kv).

(** mod.rs:397-416 [last] *)
Definition last (t : tree) : outcome (option (K * V)) :=
  if is_empty t then Ok None else
  let! id := last_leaf t in
  let! n := get_leaf (t_store t) id in
  let! i := usize_pred (l_size n) in
  let! kv := leaf_data_at n i in
  Ok (Some kv).

(** mod.rs:583-607 [locate_leaf] (it never stores to the cache) *)
Definition locate_leaf (t : tree) (k : K) : outcome nat :=
  let s := t_store t in
  let! c := try_cache s (probe_key k) in
  match c with
  | Some id => Ok id
  | None => descend_to_leaf (descend_fuel s) s (t_root t) (probe_key k)
  end.

(** mod.rs:506-532 [key_to_ref]: an [EntryRef] is (stack, leaf id, offset) *)
Fixpoint key_to_ref_loop (fuel : nat) (s : store) (node : node_id) (p : probe K)
    (stack : visit_stack) : outcome (option (visit_stack * nat * nat)) :=
  match node with
  | NLeaf id =>
      let! n := get_leaf s id in
      let! r := leaf_locate_slot n p in
      match r with
      | ROk idx => Ok (Some (stack, id, idx))
      | RErr _ => Ok None
      end
  | NInner id =>
      match fuel with
      | 0 => OutOfFuel
      | S fuel' =>
          let! n := get_inner s id in
          let! '(off, c) := inner_locate_child n p in
          let! stack := stack_push stack id off c in
          key_to_ref_loop fuel' s c p stack
      end
  end.
Definition key_to_ref (t : tree) (p : probe K) : outcome (option (visit_stack * nat * nat)) :=
  key_to_ref_loop (descend_fuel (t_store t)) (t_store t) (t_root t) p [].

End Tree.
