(** [insert] and [remove] when a call of the user's [Augmentation] panics and
    the panic is caught.

    [Augmentation::from_leaf] and [Augmentation::from_inner] are user code that
    the tree calls in the middle of an update.  The versions below take a count
    [n]: the first [n] calls return, the next one panics.  A panic unwinds out
    of the update; nothing in src/tree catches it or repairs the tree, so what
    the caller is left with ([catch_unwind]) is the tree as it is at that
    moment.  The functions repeat those of Tree.v and Remove.v line by line;
    without a panic they are the same functions (UnwindProof.v).

    Not modelled: panics of [Ord::cmp], [Clone::clone] and [Drop::drop]. *)
From stdpp Require Import list.
From Verif Require Import Base Slots BinSearch LeafNode InnerNode Store Tree Remove.

(** The update ended and [n] calls are left, or it was unwound from state [s]. *)
Inductive fin (X S : Type) :=
| Fin (x : X) (n : nat)
| Unw (s : S).
Arguments Fin {X S}. Arguments Unw {X S}.

Definition ubind {X Y S} (o : outcome (fin X S)) (f : X -> nat -> outcome (fin Y S))
  : outcome (fin Y S) :=
  let! r := o in
  match r with
  | Fin x n => f x n
  | Unw s => Ok (Unw s)
  end.

Notation "'let?' x '@' n ':=' e 'in' b" := (ubind e (fun x n => b))
  (at level 200, x name, n name, e at level 100, b at level 200, right associativity).
Notation "'let?' ' p '@' n ':=' e 'in' b" := (ubind e (fun x n => match x with p => b end))
  (at level 200, p strict pattern, n name, e at level 100, b at level 200, right associativity).

(** One call of the augmentation: [e] is its result, [s] the state left behind
    if it panics. *)
Definition aug_call {A S} (n : nat) (s : S) (e : outcome A) : outcome (fin A S) :=
  let! a := e in
  match n with
  | 0 => Ok (Unw s)
  | S n' => Ok (Fin a n')
  end.

Section Unwind.
Context {K V A : Type} {KO : KeyOps K} {PF : Profile} {AO : AugOps K V A}.
Notation store := (store K V A).
Notation tree := (tree K V A).
Notation inner := (inner K A).

(** ** Insertion *)

(** mod.rs:246-295, as [insert_ascend] (Tree.v) *)
Fixpoint u_insert_ascend (n : nat) (stack : visit_stack) (s : store) (r : insert_result K V)
  : outcome (fin (insert_result K V * store) store) :=
  match stack with
  | [] => Ok (Fin (r, s) n)
  | (id, child_idx, child_id) :: stack' =>
      match r with
      | IrSplit key right_child =>
          let? ra @ n := aug_call n s (new_augmentation_for_id s right_child) in
          let? ca @ n := aug_call n s (new_augmentation_for_id s child_id) in
          let! nd := get_inner s id in
          let! nd := inner_set_augmentation nd child_idx ca in
          if negb (inner_is_full nd) then
            let! nd := inner_insert_at nd child_idx key right_child ra in
            u_insert_ascend n stack' (put_inner s id nd) IrInserted
          else
            let! '(prompt_k, new_node, nd) := inner_split nd child_idx key right_child ra in
            let s := put_inner s id nd in
            let '(new_id, s) := add_inner s new_node in
            u_insert_ascend n stack' s (IrSplit prompt_k (NInner new_id))
      | IrInserted | IrUpdated _ =>
          let? ca @ n := aug_call n s (new_augmentation_for_id s child_id) in
          let! nd := get_inner s id in
          let! nd := inner_set_augmentation nd child_idx ca in
          u_insert_ascend n stack' (put_inner s id nd) r
      end
  end.

(** mod.rs:225-296 [insert_inner] *)
Definition u_insert_inner (n : nat) (s : store) (id : nat) (k : K) (v : V)
  : outcome (fin (insert_result K V * store) store) :=
  let! '(stack, leaf_id) := insert_descend (descend_fuel s) s id k [] in
  let! '(r, s) := insert_leaf s leaf_id k v in
  u_insert_ascend n stack s r.

(** mod.rs:213-223 [descend_insert]; [insert_leaf] calls no augmentation *)
Definition u_descend_insert (n : nat) (s : store) (node : node_id) (k : K) (v : V)
  : outcome (fin (insert_result K V * store) store) :=
  match node with
  | NInner id => u_insert_inner n s id k v
  | NLeaf id => let! r := insert_leaf s id k v in Ok (Fin r n)
  end.

(** mod.rs:156-197 [insert]; until its last lines the root, its augmentation
    and the length are the old ones. *)
Definition u_insert (n : nat) (t : tree) (k : K) (v : V)
  : outcome (fin (option V * tree) tree) :=
  let node := t_root t in
  let! r := u_descend_insert n (t_store t) node k v in
  match r with
  | Unw s => Ok (Unw (with_store t s))
  | Fin (r, s) n =>
      match r with
      | IrInserted =>
          let? a @ n := aug_call n (with_store t s) (new_augmentation_for_id s node) in
          Ok (Fin (None, mkTree node a (t_len t + 1) s (t_st t)) n)
      | IrUpdated prev_v =>
          let? a @ n := aug_call n (with_store t s) (new_augmentation_for_id s node) in
          Ok (Fin (Some prev_v, mkTree node a (t_len t) s (t_st t)) n)
      | IrSplit key new_child =>
          let? pa @ n := aug_call n (with_store t s) (new_augmentation_for_id s node) in
          let? na @ n := aug_call n (with_store t s) (new_augmentation_for_id s new_child) in
          let! root := inner_new_from_iter [key] [node; new_child] [pa; na] in
          let? a @ n := aug_call n (with_store t s) (inner_aug (V:=V) root) in
          let '(root_id, s) := add_inner s root in
          Ok (Fin (None, mkTree (NInner root_id) a (t_len t + 1) s (t_st t)) n)
      end
  end.

(** ** Removal

    The Rust code changes the parent in place while it holds a pointer to it.
    Remove.v passes the parent as a value and the caller stores it; here the
    parent, whose id is [pid], is also stored at the moment of a panic. *)
Notation state := (store * statistic)%type.

(** tree_remove.rs:235-267 [try_rotate_right_for_inner_node] *)
Definition u_rotate_right_inner (n : nat) (s : store) (st : statistic) (pid : nat)
    (node : inner) (slot : nat) : outcome (fin (bool * store * inner) state) :=
  let! c1 := inner_child_id node (slot + 1) in
  let! right_id := inner_id_unchecked c1 in
  let! c0 := inner_child_id node slot in
  let! left_id := inner_id_unchecked c0 in
  let! prev := get_inner s left_id in
  if inner_able_to_lend prev then
    let! '((k, c, a), prev) := inner_pop prev in
    let s := put_inner s left_id prev in
    let? left_a @ n := aug_call n (put_inner s pid node, st) (inner_aug (V:=V) prev) in
    let! '(slot_key, node) := inner_set_key node slot k in
    let! rgt := get_inner s right_id in
    let! rgt := inner_push_front rgt slot_key c a in
    let s := put_inner s right_id rgt in
    let? right_a @ n := aug_call n (put_inner s pid node, st) (inner_aug (V:=V) rgt) in
    let! node := inner_set_augmentation node slot left_a in
    let! node := inner_set_augmentation node (slot + 1) right_a in
    Ok (Fin (true, s, node) n)
  else Ok (Fin (false, s, node) n).

(** tree_remove.rs:269-302 [try_rotate_left_for_inner_node] *)
Definition u_rotate_left_inner (n : nat) (s : store) (st : statistic) (pid : nat)
    (node : inner) (slot : nat) : outcome (fin (bool * store * inner) state) :=
  let! c1 := inner_child_id node (slot + 1) in
  let! right_id := inner_id_unchecked c1 in
  let! c0 := inner_child_id node slot in
  let! left_id := inner_id_unchecked c0 in
  let! rgt := get_inner s right_id in
  if inner_able_to_lend rgt then
    let! '((k, c, m), rgt) := inner_pop_front rgt in
    let s := put_inner s right_id rgt in
    let? right_a @ n := aug_call n (put_inner s pid node, st) (inner_aug (V:=V) rgt) in
    let! '(slot_key, node) := inner_set_key node slot k in
    let! lft := get_inner s left_id in
    let! lft := inner_push lft slot_key c m in
    let s := put_inner s left_id lft in
    let? left_a @ n := aug_call n (put_inner s pid node, st) (inner_aug (V:=V) lft) in
    let! node := inner_set_augmentation node slot left_a in
    let! node := inner_set_augmentation node (slot + 1) right_a in
    Ok (Fin (true, s, node) n)
  else Ok (Fin (false, s, node) n).

(** tree_remove.rs:304-330 [merge_inner_node]; unwinding drops the taken right
    node too *)
Definition u_merge_inner (n : nat) (s : store) (st : statistic) (pid : nat)
    (node : inner) (slot : nat) : outcome (fin (inner_merge_result * store * inner) state) :=
  debug_assert (slot < i_size node) in
    let! c0 := inner_child_id node slot in
    let! left_id := inner_id_unchecked c0 in
    let! c1 := inner_child_id node (slot + 1) in
    let! right_id := inner_id_unchecked c1 in
    let! '(result, slot_key, node) := inner_remove_slot_with_right node slot in
    let! '(rgt, s) := take_inner s right_id in
    let! lft := get_inner s left_id in
    let! '(lft, rgt) := inner_merge_next lft slot_key rgt in
    let s := put_inner s left_id lft in
    let! a := inner_aug (V:=V) lft in
    let! _ := match n with
              | 0 => inner_drop (aug_needs_drop (K:=K) (V:=V) (A:=A)) rgt
              | S _ => Ok ()
              end in
    let? a @ n := aug_call n (put_inner s pid node, st) (Ok a) in
    let! node := inner_set_augmentation node slot a in
    let! _ := inner_drop (aug_needs_drop (K:=K) (V:=V) (A:=A)) rgt in
    Ok (Fin (result, s, node) n).

(** tree_remove.rs:97-129 [handle_inner_under_size] *)
Definition u_handle_inner (n : nat) (s : store) (st : statistic) (pid : nat) (node : inner)
    (child_idx : nat) (kv : K * V)
  : outcome (fin (delete_result K V * store * statistic * inner) state) :=
  let? '(done1, s, node) @ n :=
    if decide (0 < child_idx) then u_rotate_right_inner n s st pid node (child_idx - 1)
    else Ok (Fin (false, s, node) n) in
  if (done1 : bool) then Ok (Fin (DrDone kv, s, st_rotate_right_inner st, node) n) else
  let? '(done2, s, node) @ n :=
    if decide (child_idx < i_size node) then u_rotate_left_inner n s st pid node child_idx
    else Ok (Fin (false, s, node) n) in
  if (done2 : bool) then Ok (Fin (DrDone kv, s, st_rotate_left_inner st, node) n) else
  let '(merge_slot, st) :=
    if decide (0 < child_idx) then (child_idx - 1, st_merge_with_left_inner st)
    else (child_idx, st_merge_with_right_inner st) in
  let? '(r, s, node) @ n := u_merge_inner n s st pid node merge_slot in
  match r with
  | MergeDone => Ok (Fin (DrDone kv, s, st, node) n)
  | MergeUnderSize => Ok (Fin (DrInnerUnderSize kv, s, st, node) n)
  end.

(** tree_remove.rs:332-361 [rotate_right_for_leaf] *)
Definition u_rotate_right_leaf (n : nat) (s : store) (st : statistic) (pid : nat)
    (node : inner) (slot delete_idx : nat) : outcome (fin ((K * V) * store * inner) state) :=
  let! c0 := inner_child_id node slot in
  let! left_id := leaf_id_unchecked c0 in
  let! c1 := inner_child_id node (slot + 1) in
  let! right_id := leaf_id_unchecked c1 in
  let! lft := get_leaf s left_id in
  debug_assert_is (leaf_able_to_lend lft) in
    let! '(kv, lft) := leaf_pop lft in
    let s := put_leaf s left_id lft in
    let? la @ n := aug_call n (put_inner s pid node, st) (leaf_aug lft) in
    let! node := inner_set_augmentation node slot la in
    let new_slot_key := fst kv in
    let! rgt := get_leaf s right_id in
    let! '(deleted, rgt) := leaf_delete_with_push_front rgt delete_idx kv in
    let s := put_leaf s right_id rgt in
    let? ra @ n := aug_call n (put_inner s pid node, st) (leaf_aug rgt) in
    let! node := inner_set_augmentation node (slot + 1) ra in
    let s := cache_leaf s right_id in
    let! '(_, node) := inner_set_key node slot new_slot_key in
    Ok (Fin (deleted, s, node) n).

(** tree_remove.rs:363-391 [rotate_left_for_leaf] *)
Definition u_rotate_left_leaf (n : nat) (s : store) (st : statistic) (pid : nat)
    (parent : inner) (slot delete_idx : nat) : outcome (fin ((K * V) * store * inner) state) :=
  let! c0 := inner_child_id parent slot in
  let! left_id := leaf_id_unchecked c0 in
  let! c1 := inner_child_id parent (slot + 1) in
  let! right_id := leaf_id_unchecked c1 in
  let! rgt := get_leaf s right_id in
  debug_assert_is (leaf_able_to_lend rgt) in
    let! '(kv, rgt) := leaf_pop_front rgt in
    let s := put_leaf s right_id rgt in
    let? ra @ n := aug_call n (put_inner s pid parent, st) (leaf_aug rgt) in
    let! parent := inner_set_augmentation parent (slot + 1) ra in
    let! '(new_slot_key, _) := leaf_data_at rgt 0 in
    let! lft := get_leaf s left_id in
    let! '(deleted, lft) := leaf_delete_with_push lft delete_idx kv in
    let s := put_leaf s left_id lft in
    let? la @ n := aug_call n (put_inner s pid parent, st) (leaf_aug lft) in
    let! parent := inner_set_augmentation parent slot la in
    let! '(_, parent) := inner_set_key parent slot new_slot_key in
    Ok (Fin (deleted, cache_leaf s left_id, parent) n).

(** tree_remove.rs:393-418 [merge_leaf_node_left]: the right leaf has left the
    store when the augmentation is called, the parent still lists it *)
Definition u_merge_leaf_left (n : nat) (s : store) (st : statistic) (pid : nat)
    (parent : inner) (slot delete_idx : nat)
  : outcome (fin (delete_result K V * store * inner) state) :=
  let! c0 := inner_child_id parent slot in
  let! left_id := leaf_id_unchecked c0 in
  let! c1 := inner_child_id parent (slot + 1) in
  let! right_id := leaf_id_unchecked c1 in
  let! '(rgt, s) := take_leaf s right_id in
  let! lft := get_leaf s left_id in
  let! '(kv, lft, rgt) := leaf_merge_right_delete_first lft delete_idx rgt in
  let s := put_leaf s left_id lft in
  let? a @ n := aug_call n (put_inner s pid parent, st) (leaf_aug lft) in
  let! parent := inner_set_augmentation parent slot a in
  let! s := fix_next_prev s lft left_id in
  let! '(r, _, parent) := inner_remove_slot_with_right parent slot in
  let! _ := leaf_drop rgt in
  Ok (Fin (merge_result_to_delete r kv, cache_leaf s left_id, parent) n).

(** tree_remove.rs:420-447 [merge_leaf_node_with_right] *)
Definition u_merge_leaf_right (n : nat) (s : store) (st : statistic) (pid : nat)
    (parent : inner) (slot delete_idx : nat)
  : outcome (fin (delete_result K V * store * inner) state) :=
  let! c0 := inner_child_id parent slot in
  let! left_id := leaf_id_unchecked c0 in
  let! c1 := inner_child_id parent (slot + 1) in
  let! right_id := leaf_id_unchecked c1 in
  let! '(rgt, s) := take_leaf s right_id in
  let! lft := get_leaf s left_id in
  let! '(kv, lft) := leaf_delete_at lft delete_idx in
  let! '(lft, rgt) := leaf_merge_right lft rgt in
  let s := put_leaf s left_id lft in
  let? a @ n := aug_call n (put_inner s pid parent, st) (leaf_aug lft) in
  let! parent := inner_set_augmentation parent slot a in
  let! s := fix_next_prev s lft left_id in
  let! '(r, _, parent) := inner_remove_slot_with_right parent slot in
  let! _ := leaf_drop rgt in
  Ok (Fin (merge_result_to_delete r kv, cache_leaf s left_id, parent) n).

(** tree_remove.rs:131-233 [handle_leaf_under_size]; the counters of the
    rotations go up after the rotation, those of the merges before the merge *)
Definition u_handle_leaf (n : nat) (s : store) (st : statistic) (pid : nat) (node : inner)
    (child_idx key_idx : nat)
  : outcome (fin (delete_result K V * store * statistic * inner) state) :=
  let! prev :=
    if decide (0 < child_idx) then
      let! c := inner_child_id node (child_idx - 1) in
      let! id := leaf_id_unchecked c in
      let! n := get_leaf s id in Ok (Some n)
    else Ok None in
  let! next :=
    if decide (child_idx < i_size node) then
      let! c := inner_child_id node (child_idx + 1) in
      let! id := leaf_id_unchecked c in
      let! n := get_leaf s id in Ok (Some n)
    else Ok None in
  let! action := choose_fix_action prev next in
  match action with
  | FxRotateRight =>
      let? '(kv, s, node) @ n := u_rotate_right_leaf n s st pid node (child_idx - 1) key_idx in
      Ok (Fin (DrDone kv, s, st_rotate_right_leaf st, node) n)
  | FxRotateLeft =>
      let? '(kv, s, node) @ n := u_rotate_left_leaf n s st pid node child_idx key_idx in
      Ok (Fin (DrDone kv, s, st_rotate_left_leaf st, node) n)
  | FxMergeLeft =>
      let st := st_merge_with_left_leaf st in
      let? '(r, s, node) @ n := u_merge_leaf_left n s st pid node (child_idx - 1) key_idx in
      Ok (Fin (r, s, st, node) n)
  | FxMergeRight =>
      let st := st_merge_with_right_leaf st in
      let? '(r, s, node) @ n := u_merge_leaf_right n s st pid node child_idx key_idx in
      Ok (Fin (r, s, st, node) n)
  end.

(** tree_remove.rs:36-60: the loop popping the visit stack *)
Fixpoint u_remove_ascend (n : nat) (stack : visit_stack) (s : store) (st : statistic)
    (r : delete_result K V) : outcome (fin (delete_result K V * store * statistic) state) :=
  match stack with
  | [] => Ok (Fin (r, s, st) n)
  | (parent_id, child_idx, child_id) :: stack' =>
      match r with
      | DrDone kv =>
          let? ca @ n := aug_call n (s, st) (new_augmentation_for_id s child_id) in
          let! nd := get_inner s parent_id in
          let! nd := inner_set_augmentation nd child_idx ca in
          u_remove_ascend n stack' (put_inner s parent_id nd) st r
      | DrInnerUnderSize kv =>
          let! nd := get_inner s parent_id in
          let? '(r, s, st, nd) @ n := u_handle_inner n s st parent_id nd child_idx kv in
          u_remove_ascend n stack' (put_inner s parent_id nd) st r
      | DrLeafUnderSize idx =>
          let! nd := get_inner s parent_id in
          let? '(r, s, st, nd) @ n := u_handle_leaf n s st parent_id nd child_idx idx in
          u_remove_ascend n stack' (put_inner s parent_id nd) st r
      end
  end.

(** tree_remove.rs:18-95 [remove_by_ref]; [len -= 1] is its last line *)
Definition u_remove_by_ref (n : nat) (t : tree) (stack : visit_stack) (leaf_id offset : nat)
  : outcome (fin ((K * V) * tree) tree) :=
  let s := t_store t in
  let! nd := get_leaf s leaf_id in
  let! '(r, nd) := leaf_try_delete_at nd offset in
  let s := put_leaf s leaf_id nd in
  let r := match r with
           | DelDone kv => DrDone kv
           | DelUnderSize idx => DrLeafUnderSize idx
           end in
  let! f := u_remove_ascend n stack s (t_st t) r in
  match f with
  | Unw (s, st) => Ok (Unw (mkTree (t_root t) (t_aug t) (t_len t) s st))
  | Fin (r, s, st) n =>
      let! '(kv, root, s) :=
        match r with
        | DrDone kv => Ok (kv, t_root t, s)
        | DrInnerUnderSize kv =>
            let! rid := inner_id_unchecked (t_root t) in
            let! root := get_inner s rid in
            if decide (i_size root = 0) then
              let! c := inner_child_id root 0 in Ok (kv, c, s)
            else Ok (kv, t_root t, s)
        | DrLeafUnderSize idx =>
            let! lid := leaf_id_unchecked (t_root t) in
            let! l := get_leaf s lid in
            let! '(kv, l) := leaf_delete_at l idx in
            Ok (kv, t_root t, put_leaf s lid l)
        end in
      let? a @ n := aug_call n (mkTree root (t_aug t) (t_len t) s st)
                      (new_augmentation_for_id s root) in
      let! len := usize_pred (t_len t) in
      Ok (Fin (kv, mkTree root a len s st) n)
  end.

(** tree_remove.rs:8-16 [remove_impl], mod.rs:498-504 [remove] *)
Definition u_remove (n : nat) (t : tree) (p : probe K) : outcome (fin (option V * tree) tree) :=
  let! r := key_to_ref t p in
  match r with
  | None => Ok (Fin (None, t) n)
  | Some (stack, leaf_id, offset) =>
      let? '(kv, t) @ n := u_remove_by_ref n t stack leaf_id offset in
      Ok (Fin (Some (snd kv), t) n)
  end.

End Unwind.
