(** src/tree/leaf_node.rs *)
From stdpp Require Import list.
From Verif Require Import Base Slots BinSearch.

(** leaf_node.rs:12-20 [LeafNode] *)
Record leaf (K V : Type) := mkLeaf {
  l_size : nat;
  l_keys : slots K;
  l_vals : slots V;
  l_prev : option nat;
  l_next : option nat;
}.
Arguments mkLeaf {K V}.
Arguments l_size {K V}. Arguments l_keys {K V}. Arguments l_vals {K V}.
Arguments l_prev {K V}. Arguments l_next {K V}.

(** leaf_node.rs:596-600 [LeafUpsertResult] *)
Inductive leaf_upsert_result (K V : Type) :=
| UpInserted
| UpUpdated (v : V)
| UpIsFull (idx : nat) (k : K) (v : V).
Arguments UpInserted {K V}. Arguments UpUpdated {K V}. Arguments UpIsFull {K V}.

(** leaf_node.rs:602-607 [LeafDeleteResult] *)
Inductive leaf_delete_result (K V : Type) :=
| DelDone (kv : K * V)
| DelUnderSize (idx : nat).
Arguments DelDone {K V}. Arguments DelUnderSize {K V}.

Section LeafNode.
Context {K V : Type} {PF : Profile}.
Notation leaf := (leaf K V).

(** leaf_node.rs:58-68 [LeafNode::new] *)
Definition leaf_new : leaf :=
  mkLeaf 0 (slots_empty LEAF_N) (slots_empty LEAF_N) None None.

(** leaf_node.rs:78-80 [split_origin_size] *)
Definition leaf_split_origin_size : nat := 32.
(** leaf_node.rs:89-96 [minimum_size] *)
Definition leaf_minimum_size : nat := 16.
(** leaf_node.rs:98-100 [is_full] *)
Definition leaf_is_full (n : leaf) : bool := bool_decide (l_size n = LEAF_N).
(** leaf_node.rs:102-104 [able_to_lend] *)
Definition leaf_able_to_lend (n : leaf) : bool := bool_decide (leaf_minimum_size < l_size n).

(** leaf_node.rs:527-553 [keys], [values] *)
Definition leaf_keys (n : leaf) : outcome (list K) := slots_prefix (l_keys n) (l_size n).
Definition leaf_values (n : leaf) : outcome (list V) := slots_prefix (l_vals n) (l_size n).

(** leaf_node.rs:106-123 [in_range]; [p x] compares the stored key [x] with
    the lookup argument, so [k < x] is [p x = Gt]. *)
Definition leaf_in_range (n : leaf) (p : probe K) : outcome bool :=
  let! is_lt_start :=
    match l_prev n with
    | Some _ => let! x := slot_get (l_keys n) 0 in
                Ok (match p x with Gt => true | _ => false end)
    | None => Ok false
    end in
  if (is_lt_start : bool) then Ok false else
  let! is_gt_end :=
    match l_next n with
    | Some _ => let! i := usize_pred (l_size n) in
                let! x := slot_get (l_keys n) i in
                Ok (match p x with Lt => true | _ => false end)
    | None => Ok false
    end in
  Ok (negb is_gt_end).

(** leaf_node.rs:125-134 [key_range] *)
Definition leaf_key_range (n : leaf) : outcome (option K * option K) :=
  debug_assert (l_size n <> 0) in
  let! start :=
    match l_prev n with
    | Some _ => let! x := slot_get (l_keys n) 0 in Ok (Some x)
    | None => Ok None
    end in
  let! stop :=
    match l_next n with
    | Some _ => let! i := usize_pred (l_size n) in
                let! x := slot_get (l_keys n) i in Ok (Some x)
    | None => Ok None
    end in
  Ok (start, stop).

(** leaf_node.rs:140-154 [set_prev], [set_next] *)
Definition leaf_set_prev (n : leaf) (p : option nat) : leaf :=
  mkLeaf (l_size n) (l_keys n) (l_vals n) p (l_next n).
Definition leaf_set_next (n : leaf) (x : option nat) : leaf :=
  mkLeaf (l_size n) (l_keys n) (l_vals n) (l_prev n) x.

(** leaf_node.rs:156-168 [set_data]: takes at most [LEAF_N] items from the
    iterator, writing slot [i] in iteration [i]; returns what is left.
    [i] counts up to [LEAF_N], [todo] is [LEAF_N - i]. *)
Fixpoint leaf_set_data_loop (todo i : nat) (n : leaf) (data : list (K * V))
  : outcome (leaf * list (K * V)) :=
  match todo with
  | 0 => Ok (n, data)
  | S todo' =>
      match data with
      | [] => Ok (n, [])
      | (k, v) :: data' =>
          let! ks := slot_put (l_keys n) i k in
          let! vs := slot_put (l_vals n) i v in
          leaf_set_data_loop todo' (S i)
            (mkLeaf (S (l_size n)) ks vs (l_prev n) (l_next n)) data'
      end
  end.
Definition leaf_set_data (n : leaf) (data : list (K * V)) : outcome (leaf * list (K * V)) :=
  leaf_set_data_loop LEAF_N 0 n data.

(** leaf_node.rs:170-177 [data_at] *)
Definition leaf_data_at (n : leaf) (slot : nat) : outcome (K * V) :=
  let! k := slot_get (l_keys n) slot in
  let! v := slot_get (l_vals n) slot in
  Ok (k, v).

(** leaf_node.rs:180-182 [value_at_mut], used to overwrite the value by [f] of
    it; returns the old value *)
Definition leaf_value_at_mut (n : leaf) (slot : nat) (f : V -> V) : outcome (V * leaf) :=
  let! v := slot_get (l_vals n) slot in
  Ok (v, mkLeaf (l_size n) (l_keys n) (<[slot := Some (f v)]> (l_vals n)) (l_prev n) (l_next n)).

(** leaf_node.rs:184-194 [try_data_at] *)
Definition leaf_try_data_at (n : leaf) (idx : nat) : outcome (option (K * V)) :=
  if decide (l_size n <= idx) then Ok None else
  let! kv := leaf_data_at n idx in Ok (Some kv).

(** leaf_node.rs:311-317 [locate_slot] *)
Definition leaf_locate_slot (n : leaf) (p : probe K) : outcome (result nat nat) :=
  let! ks := leaf_keys n in binary_search p ks.

(** leaf_node.rs:213-234 [try_upsert] *)
Definition leaf_try_upsert {KO : KeyOps K} (n : leaf) (k : K) (v : V)
  : outcome (leaf_upsert_result K V * leaf) :=
  let! r := leaf_locate_slot n (probe_key k) in
  match r with
  | ROk idx =>
      let! '(prev_v, vs) := slot_replace (l_vals n) idx v in
      Ok (UpUpdated prev_v, mkLeaf (l_size n) (l_keys n) vs (l_prev n) (l_next n))
  | RErr idx =>
      if negb (leaf_is_full n) then
        let new_len := l_size n + 1 in
        let! ks := slice_insert (l_keys n) new_len idx k in
        let! vs := slice_insert (l_vals n) new_len idx v in
        Ok (UpInserted, mkLeaf new_len ks vs (l_prev n) (l_next n))
      else Ok (UpIsFull idx k v, n)
  end.

(** leaf_node.rs:236-294 [split_new_leaf]: returns (new node, modified self) *)
Definition leaf_split_new_leaf (n : leaf) (insert_idx : nat) (item : K * V)
    (new_leaf_id self_leaf_id : nat) : outcome (leaf * leaf) :=
  let o := leaf_split_origin_size in
  let w := LEAF_N - o in
  let! '(ks, nks) := move_to_slice (l_keys n) o LEAF_N (slots_empty LEAF_N) 0 w in
  let! '(vs, nvs) := move_to_slice (l_vals n) o LEAF_N (slots_empty LEAF_N) 0 w in
  if decide (insert_idx < o) then
    let! ks := slice_insert ks (o + 1) insert_idx (fst item) in
    let! vs := slice_insert vs (o + 1) insert_idx (snd item) in
    Ok (mkLeaf w nks nvs (Some self_leaf_id) (l_next n),
        mkLeaf (o + 1) ks vs (l_prev n) (Some new_leaf_id))
  else
    let insert_idx := insert_idx - o in
    let! nks := slice_insert nks (w + 1) insert_idx (fst item) in
    let! nvs := slice_insert nvs (w + 1) insert_idx (snd item) in
    Ok (mkLeaf (w + 1) nks nvs (Some self_leaf_id) (l_next n),
        mkLeaf o ks vs (l_prev n) (Some new_leaf_id)).

(** leaf_node.rs:517-525 [delete_at] *)
Definition leaf_delete_at (n : leaf) (idx : nat) : outcome ((K * V) * leaf) :=
  let! '(k, ks) := slice_remove (l_keys n) (l_size n) idx in
  let! '(v, vs) := slice_remove (l_vals n) (l_size n) idx in
  let! sz := usize_pred (l_size n) in
  Ok ((k, v), mkLeaf sz ks vs (l_prev n) (l_next n)).

(** leaf_node.rs:296-308 [try_delete_at]; the [Done] branch is the body of [delete_at] *)
Definition leaf_try_delete_at (n : leaf) (idx : nat)
  : outcome (leaf_delete_result K V * leaf) :=
  if leaf_able_to_lend n then
    let! '(kv, n') := leaf_delete_at n idx in Ok (DelDone kv, n')
  else Ok (DelUnderSize idx, n).

(** leaf_node.rs:320-341 [locate_slot_with_value] *)
Definition leaf_locate_slot_with_value (n : leaf) (p : probe K)
  : outcome (nat * option V) :=
  let! r := leaf_locate_slot n p in
  match r with
  | ROk idx => let! v := slot_get (l_vals n) idx in Ok (idx, Some v)
  | RErr idx => Ok (idx, None)
  end.

(** leaf_node.rs:343-365 [locate_slot_mut] followed by overwriting the value
    with [f] of it; returns the old value *)
Definition leaf_locate_slot_mut (n : leaf) (p : probe K) (f : V -> V)
  : outcome (option V * leaf) :=
  let! r := leaf_locate_slot n p in
  match r with
  | ROk idx => let! '(v, n') := leaf_value_at_mut n idx f in Ok (Some v, n')
  | RErr idx => Ok (None, n)
  end.

(** leaf_node.rs:367-377 [pop] *)
Definition leaf_pop (n : leaf) : outcome ((K * V) * leaf) :=
  debug_assert_is (leaf_able_to_lend n) in
  let! last_idx := usize_pred (l_size n) in leaf_delete_at n last_idx.

(** leaf_node.rs:379-388 [pop_front] *)
Definition leaf_pop_front (n : leaf) : outcome ((K * V) * leaf) :=
  debug_assert_is (leaf_able_to_lend n) in leaf_delete_at n 0.

(** leaf_node.rs:391-402 [delete_with_push] *)
Definition leaf_delete_with_push (n : leaf) (idx : nat) (item : K * V)
  : outcome ((K * V) * leaf) :=
  let! '(k, ks) := slice_remove (l_keys n) (l_size n) idx in
  let! '(v, vs) := slice_remove (l_vals n) (l_size n) idx in
  let! i := usize_pred (l_size n) in
  let! ks := slot_put ks i (fst item) in
  let! vs := slot_put vs i (snd item) in
  Ok ((k, v), mkLeaf (l_size n) ks vs (l_prev n) (l_next n)).

(** leaf_node.rs:405-415 [delete_with_push_front]; [self.slot_key[idx]] is a
    checked index (panics out of bounds) *)
Definition leaf_delete_with_push_front (n : leaf) (idx : nat) (item : K * V)
  : outcome ((K * V) * leaf) :=
  if decide (idx < length (l_keys n) /\ idx < length (l_vals n)) then
    let! '(k, ks) := slot_take (l_keys n) idx in
    let! '(v, vs) := slot_take (l_vals n) idx in
    let! ks := slice_insert ks (idx + 1) 0 (fst item) in
    let! vs := slice_insert vs (idx + 1) 0 (snd item) in
    Ok ((k, v), mkLeaf (l_size n) ks vs (l_prev n) (l_next n))
  else Panic.

(** leaf_node.rs:503-515 [extend] applied to the slices [a..b] of [right];
    returns (self, right) *)
Definition leaf_extend (n right : leaf) (a b : nat) : outcome (leaf * leaf) :=
  let! '(rks, ks) := move_to_slice (l_keys right) a b (l_keys n) (l_size n) (l_size n + (b - a)) in
  let! '(rvs, vs) := move_to_slice (l_vals right) a b (l_vals n) (l_size n) (l_size n + (b - a)) in
  Ok (mkLeaf (l_size n + (b - a)) ks vs (l_prev n) (l_next n),
      mkLeaf (l_size right) rks rvs (l_prev right) (l_next right)).

(** leaf_node.rs:418-469 [merge_right_delete_first]; returns the deleted item,
    self and what is left of [right] *)
Definition leaf_merge_right_delete_first (n : leaf) (delete_idx : nat) (right : leaf)
  : outcome ((K * V) * leaf * leaf) :=
  let! '(k, rks) := slot_take (l_keys right) delete_idx in
  let! '(v, rvs) := slot_take (l_vals right) delete_idx in
  let right := mkLeaf (l_size right) rks rvs (l_prev right) (l_next right) in
  let! '(n, right) := leaf_extend n right 0 delete_idx in
  let! '(n, right) := leaf_extend n right (delete_idx + 1) (l_size right) in
  Ok ((k, v), leaf_set_next n (l_next right),
      mkLeaf 0 (l_keys right) (l_vals right) (l_prev right) (l_next right)).

(** leaf_node.rs:472-488 [merge_right] *)
Definition leaf_merge_right (n right : leaf) : outcome (leaf * leaf) :=
  let! '(n, right) := leaf_extend n right 0 (l_size right) in
  Ok (leaf_set_next n (l_next right),
      mkLeaf 0 (l_keys right) (l_vals right) (l_prev right) (l_next right)).

(** leaf_node.rs:491-501 [take_data] *)
Definition leaf_take_data (n : leaf) (slot : nat) : outcome ((K * V) * leaf) :=
  debug_assert (slot < l_size n) in
  let! '(k, ks) := slot_take (l_keys n) slot in
  let! '(v, vs) := slot_take (l_vals n) slot in
  Ok ((k, v), mkLeaf (l_size n) ks vs (l_prev n) (l_next n)).

(** The end of a [Box<LeafNode>].  leaf_node.rs:12-20: the slots are [MaybeUninit] and
    there is no [Drop], so what they still hold is given up *)
Definition leaf_drop (n : leaf) : outcome unit :=
  if_vacant (l_keys n) (if_vacant (l_vals n) (Ok tt)).

(** leaf_node.rs:22-55 [Clone for LeafNode] *)
Definition leaf_clone (n : leaf) : outcome leaf :=
  let! ks := leaf_keys n in
  let! vs := leaf_values n in
  Ok (mkLeaf (l_size n)
        (map Some ks ++ slots_empty (LEAF_N - length ks))
        (map Some vs ++ slots_empty (LEAF_N - length vs))
        (l_prev n) (l_next n)).

End LeafNode.
