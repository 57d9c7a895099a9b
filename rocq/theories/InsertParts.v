(** The part of [insert] after the search: nothing here compares keys.  [insert_leaf]
    and [insert] (Tree.v) are the search followed by these (VolatileLink.v). *)
From stdpp Require Import list.
From Verif Require Import Base Slots LeafNode InnerNode Store Tree.

Section InsertParts.
Context {K V A : Type} {AO : AugOps K V A} {PF : Profile}.
Notation store := (store K V A).
Notation tree := (tree K V A).

(** leaf_node.rs:213-234 [try_upsert] after [locate_slot] *)
Definition leaf_upsert_at (n : leaf K V) (k : K) (v : V) (r : result nat nat)
  : outcome (leaf_upsert_result K V * leaf K V) :=
  match r with
  | ROk idx =>
      let! '(prev_v, vs) := slot_replace (l_vals n) idx v in
      Ok (UpUpdated prev_v, mkLeaf (l_size n) (l_keys n) vs (l_prev n) (l_next n))
  | RErr idx =>
      if negb (leaf_is_full n) then
        let new_len := l_size n + 1 in
        let! ks := slice_insert (l_keys n) new_len idx k in
        let! vs := slice_insert (l_vals n) new_len idx v in
        Ok (UpInserted, mkLeaf new_len ks vs (l_prev n) (l_next n))
      else Ok (UpIsFull idx k v, n)
  end.

(** mod.rs:311-341 [insert_leaf] after [locate_slot] *)
Definition insert_leaf_at (s : store) (id : nat) (n : leaf K V) (k : K) (v : V) (r : result nat nat)
  : outcome (insert_result K V * store) :=
  let! '(r, n) := leaf_upsert_at n k v r in
  let s := put_leaf s id n in
  match r with
  | UpInserted => Ok (IrInserted, cache_leaf s id)
  | UpUpdated v' => Ok (IrUpdated v', s)
  | UpIsFull idx k v =>
      let '(right_id, s) := reserve_leaf s in
      let! l := get_leaf s id in
      let! '(r_leaf, l) := leaf_split_new_leaf l idx (k, v) right_id id in
      let s := put_leaf s id l in
      let! '(slot_key, _) := leaf_data_at r_leaf 0 in
      let! s :=
        match l_next r_leaf with
        | Some next =>
            let! nl := get_leaf s next in
            Ok (put_leaf s next (leaf_set_prev nl (Some right_id)))
        | None => Ok s
        end in
      let! s := assign_leaf s right_id r_leaf in
      let updated_id := if decide (Nat.div LEAF_N 2 <= idx) then right_id else id in
      Ok (IrSplit slot_key (NLeaf right_id), cache_leaf s updated_id)
  end.
(** mod.rs:159-196 [insert] after [descend_insert] *)
Definition insert_top (t : tree) (r : insert_result K V) (s : store) : outcome (option V * tree) :=
  let node := t_root t in
  match r with
  | IrInserted =>
      let! a := new_augmentation_for_id s node in
      Ok (None, mkTree node a (t_len t + 1) s (t_st t))
  | IrUpdated prev_v =>
      let! a := new_augmentation_for_id s node in
      Ok (Some prev_v, mkTree node a (t_len t) s (t_st t))
  | IrSplit key new_child =>
      let! pa := new_augmentation_for_id s node in
      let! na := new_augmentation_for_id s new_child in
      let! root := inner_new_from_iter [key] [node; new_child] [pa; na] in
      let! ks := inner_keys root in
      let! aus := inner_augmentations root in
      let a := from_inner (V:=V) ks aus in
      let '(root_id, s) := add_inner s root in
      Ok (None, mkTree (NInner root_id) a (t_len t + 1) s (t_st t))
  end.

End InsertParts.
