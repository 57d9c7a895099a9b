(** src/tree/inner_node.rs *)
From stdpp Require Import list.
From Verif Require Import Base Slots BinSearch LeafNode.

(** inner_node.rs:16-23 [InnerNode] *)
Record inner (K A : Type) := mkInner {
  i_size : nat;
  i_keys : slots K;
  i_child : slots node_id;
  i_augs : slots A;
}.
Arguments mkInner {K A}.
Arguments i_size {K A}. Arguments i_keys {K A}.
Arguments i_child {K A}. Arguments i_augs {K A}.

(** inner_node.rs:648-651 [InnerMergeResult] *)
Inductive inner_merge_result := MergeDone | MergeUnderSize.

Section InnerNode.
Context {K A : Type} {PF : Profile}.
Notation inner := (inner K A).

(** inner_node.rs:88-95 [split_origin_size], [split_new_size] *)
Definition inner_split_origin_size : nat := 32.
Definition inner_split_new_size : nat := INNER_N - inner_split_origin_size.
(** inner_node.rs:98-100 [minimum_size] *)
Definition inner_minimum_size : nat := MIN_N.
(** inner_node.rs:104-106 [able_to_lend] *)
Definition inner_able_to_lend (n : inner) : bool :=
  bool_decide (inner_minimum_size < i_size n).
(** inner_node.rs:109-111 [is_full] *)
Definition inner_is_full (n : inner) : bool := bool_decide (i_size n = INNER_N).

(** inner_node.rs:113-120 [empty] *)
Definition inner_empty : inner :=
  mkInner 0 (slots_empty INNER_N) (slots_empty INNER_C) (slots_empty INNER_C).

(** inner_node.rs:25-38 [Drop for InnerNode]; keys are dropped too (the key type
    may own memory), so all slots [..size] of the key array must be live.  The
    other slots are given up. *)
Definition inner_drop (needs_drop : bool) (n : inner) : outcome unit :=
  let! _ := drop_prefix true (i_keys n) (i_size n) in
  let! _ := drop_prefix needs_drop (i_augs n) (i_size n + 1) in
  if_vacant (drop (i_size n) (i_keys n)) (if_vacant (drop (i_size n + 1) (i_augs n)) (Ok tt)).

(** inner_node.rs:40-70 [Clone for InnerNode]; [child_id] is copied bitwise *)
Definition inner_clone (n : inner) : outcome inner :=
  let! ks := slots_prefix (i_keys n) (i_size n) in
  let! aus := slots_prefix (i_augs n) (i_size n + 1) in
  Ok (mkInner (i_size n)
        (map Some ks ++ slots_empty (INNER_N - length ks))
        (i_child n)
        (map Some aus ++ slots_empty (INNER_C - length aus))).

(** inner_node.rs:132-163: [for (idx, x) in it.enumerate() { arr[idx] = new(x) }]
    with checked indexing *)
Fixpoint fill_slots {T} (s : slots T) (idx : nat) (xs : list T) : outcome (slots T) :=
  match xs with
  | [] => Ok s
  | x :: xs' => if decide (idx < length s)
                then let! s := slot_put s idx x in fill_slots s (S idx) xs'
                else Panic
  end.

(** inner_node.rs:123-163 [new], [new_from_iter] *)
Definition inner_new_from_iter (keys : list K) (childs : list node_id) (augs : list A)
  : outcome inner :=
  let! ks := fill_slots (slots_empty INNER_N) 0 keys in
  let! cs := fill_slots (slots_empty INNER_C) 0 childs in
  let! aus := fill_slots (slots_empty INNER_C) 0 augs in
  if decide (length keys + 1 = length childs) then
    Ok (mkInner (length keys) ks cs aus)
  else Panic.

(** inner_node.rs:165-192 [keys], [augmentations] *)
Definition inner_keys (n : inner) : outcome (list K) := slots_prefix (i_keys n) (i_size n).
Definition inner_augmentations (n : inner) : outcome (list A) :=
  slots_prefix (i_augs n) (i_size n + 1).

(** inner_node.rs:195-201 [set_augmentation]: the previous value is dropped, so
    it must be live (checked even for types without drop glue) *)
Definition inner_set_augmentation (n : inner) (idx : nat) (a : A) : outcome inner :=
  let! '(_, aus) := slot_replace (i_augs n) idx a in
  Ok (mkInner (i_size n) (i_keys n) (i_child n) aus).

(** inner_node.rs:564-566 [child_id] *)
Definition inner_child_id (n : inner) (idx : nat) : outcome node_id := slot_get (i_child n) idx.

(** inner_node.rs:205-222 [locate_child] *)
Definition inner_locate_child (n : inner) (p : probe K) : outcome (nat * node_id) :=
  let! ks := inner_keys n in
  let! r := binary_search p ks in
  match r with
  | RErr idx => let! c := inner_child_id n idx in Ok (idx, c)
  | ROk idx => let! c := inner_child_id n (idx + 1) in Ok (idx + 1, c)
  end.

(** inner_node.rs:225-251 [insert_at] *)
Definition inner_insert_at (n : inner) (slot : nat) (k : K) (c : node_id) (a : A)
  : outcome inner :=
  debug_assert (slot <= i_size n) in
  debug_assert_is (negb (inner_is_full n)) in
  let! ks := slice_insert (i_keys n) (i_size n + 1) slot k in
  let! cs := slice_insert (i_child n) (i_size n + 2) (slot + 1) c in
  let! aus := slice_insert (i_augs n) (i_size n + 2) (slot + 1) a in
  Ok (mkInner (i_size n + 1) ks cs aus).

(** inner_node.rs:257-397 [split]: returns (prompted key, new right node, self) *)
Definition inner_split (n : inner) (child_idx : nat) (k : K) (c : node_id) (a : A)
  : outcome (K * inner * inner) :=
  debug_assert_is (inner_is_full n) in
    let o := inner_split_origin_size in
    let w := inner_split_new_size in
    let ek := slots_empty INNER_N in
    let ec := slots_empty INNER_C in
    let ea := slots_empty INNER_C in
    if decide (child_idx < o) then
      let! '(new_key, ks) := slot_take (i_keys n) (o - 1) in
      let! '(ks, nks) := move_to_slice ks o INNER_N ek 0 w in
      let! '(cs, ncs) := move_to_slice (i_child n) o (INNER_N + 1) ec 0 (w + 1) in
      let! '(aus, naus) := move_to_slice (i_augs n) o (INNER_N + 1) ea 0 (w + 1) in
      let! ks := slice_insert ks (o + 1) child_idx k in
      let! cs := slice_insert cs (o + 2) (child_idx + 1) c in
      let! aus := slice_insert aus (o + 2) (child_idx + 1) a in
      Ok (new_key, mkInner w nks ncs naus, mkInner o ks cs aus)
    else if decide (o < child_idx) then
      let pk := o in
      let! '(new_key, ks) := slot_take (i_keys n) pk in
      let si := child_idx - 1 - o in
      let ci := child_idx - o in
      let! '(ks, nks) := move_to_slice ks (pk + 1) (pk + si + 1) ek 0 si in
      let! '(cs, ncs) := move_to_slice (i_child n) (o + 1) (o + 1 + ci) ec 0 ci in
      let! '(aus, naus) := move_to_slice (i_augs n) (o + 1) (o + 1 + ci) ea 0 ci in
      let! nks := slot_put nks si k in
      let! ncs := slot_put ncs ci c in
      let! naus := slot_put naus ci a in
      let! '(ks, nks) := move_to_slice ks (pk + si + 1) INNER_N nks (si + 1) w in
      let! '(cs, ncs) := move_to_slice cs (o + 1 + ci) (INNER_N + 1) ncs (ci + 1) (w + 1) in
      let! '(aus, naus) := move_to_slice aus (o + 1 + ci) (INNER_N + 1) naus (ci + 1) (w + 1) in
      Ok (new_key, mkInner w nks ncs naus, mkInner o ks cs aus)
    else
      let! '(ks, nks) := move_to_slice (i_keys n) o INNER_N ek 0 w in
      let! '(cs, ncs) := move_to_slice (i_child n) (o + 1) (INNER_N + 1) ec 1 (w + 1) in
      let! '(aus, naus) := move_to_slice (i_augs n) (o + 1) (INNER_N + 1) ea 1 (w + 1) in
      let! ncs := slot_put ncs 0 c in
      let! naus := slot_put naus 0 a in
      Ok (k, mkInner w nks ncs naus, mkInner o ks cs aus).

(** inner_node.rs:401-419 [remove_slot_with_right] *)
Definition inner_remove_slot_with_right (n : inner) (slot : nat)
  : outcome (inner_merge_result * K * inner) :=
  let! '(k, ks) := slice_remove (i_keys n) (i_size n) slot in
  let! '(_, cs) := slice_remove (i_child n) (i_size n + 1) (slot + 1) in
  let! '(_, aus) := slice_remove (i_augs n) (i_size n + 1) (slot + 1) in
  let! sz := usize_pred (i_size n) in
  let n' := mkInner sz ks cs aus in
  if decide (inner_minimum_size <= sz) then Ok (MergeDone, k, n')
  else Ok (MergeUnderSize, k, n').

(** inner_node.rs:421-446 [merge_next]: returns (self, right) *)
Definition inner_merge_next (n : inner) (slot_key : K) (right : inner)
  : outcome (inner * inner) :=
  let! ks := slot_put (i_keys n) (i_size n) slot_key in
  let s := i_size n + 1 in
  let rs := i_size right in
  debug_assert (s + rs <= INNER_N) in
    let! '(rks, ks) := move_to_slice (i_keys right) 0 rs ks s (s + rs) in
    let! '(rcs, cs) := move_to_slice (i_child right) 0 (rs + 1) (i_child n) s (s + rs + 1) in
    let! '(raus, aus) := move_to_slice (i_augs right) 0 (rs + 1) (i_augs n) s (s + rs + 1) in
    Ok (mkInner (s + rs) ks cs aus, mkInner 0 rks rcs raus).

(** inner_node.rs:449-470 [pop] *)
Definition inner_pop (n : inner) : outcome ((K * node_id * A) * inner) :=
  let! i := usize_pred (i_size n) in
  let! '(k, ks) := slot_take (i_keys n) i in
  let! '(c, cs) := slot_take (i_child n) (i_size n) in
  let! '(a, aus) := slot_take (i_augs n) (i_size n) in
  Ok ((k, c, a), mkInner i ks cs aus).

(** inner_node.rs:472-484 [pop_front] *)
Definition inner_pop_front (n : inner) : outcome ((K * node_id * A) * inner) :=
  let! '(k, ks) := slice_remove (i_keys n) (i_size n) 0 in
  let! '(c, cs) := slice_remove (i_child n) (i_size n + 1) 0 in
  let! '(a, aus) := slice_remove (i_augs n) (i_size n + 1) 0 in
  let! i := usize_pred (i_size n) in
  Ok ((k, c, a), mkInner i ks cs aus).

(** inner_node.rs:486-493 [push] *)
Definition inner_push (n : inner) (k : K) (c : node_id) (a : A) : outcome inner :=
  let! ks := slot_put (i_keys n) (i_size n) k in
  let! cs := slot_put (i_child n) (i_size n + 1) c in
  let! aus := slot_put (i_augs n) (i_size n + 1) a in
  Ok (mkInner (i_size n + 1) ks cs aus).

(** inner_node.rs:495-506 [push_front] *)
Definition inner_push_front (n : inner) (k : K) (c : node_id) (a : A) : outcome inner :=
  let! ks := slice_insert (i_keys n) (i_size n + 1) 0 k in
  let! cs := slice_insert (i_child n) (i_size n + 2) 0 c in
  let! aus := slice_insert (i_augs n) (i_size n + 2) 0 a in
  Ok (mkInner (i_size n + 1) ks cs aus).

(** inner_node.rs:558-562 [set_key]: returns the previous key *)
Definition inner_set_key (n : inner) (idx : nat) (k : K) : outcome (K * inner) :=
  let! '(old, ks) := slot_replace (i_keys n) idx k in
  Ok (old, mkInner (i_size n) ks (i_child n) (i_augs n)).

End InnerNode.
