(** src/tree/bulk_load.rs and the [FromIterator] implementations (map.rs, set.rs) *)
From stdpp Require Import list.
From Verif Require Import Base Slots BinSearch LeafNode InnerNode Store Tree Remove.

Section BulkLoad.
Context {K V A : Type} {KO : KeyOps K} {PF : Profile} {AO : AugOps K V A}.
Notation store := (store K V A).
Notation tree := (tree K V A).

(** bulk_load.rs:18, [l.0.eq(&r.0)]; [Eq] agrees with [Ord] *)
Definition same_key (x y : K * V) : bool :=
  match kcmp (fst x) (fst y) with Eq => true | _ => false end.

(** bulk_load.rs:106-136 [DeDupKeepLast]: the sequence of items the iterator
    yields, starting with [current_item = cur] and the underlying iterator at
    [l].  (The adapter is lazy in Rust; only the sequence matters.) *)
Fixpoint dedup_keep_last (cur : option (K * V)) (l : list (K * V)) : list (K * V) :=
  match l with
  | [] => match cur with Some c => [c] | None => [] end
  | x :: l' =>
      match cur with
      | Some c => if same_key c x then dedup_keep_last (Some x) l'
                  else c :: dedup_keep_last (Some x) l'
      | None => dedup_keep_last (Some x) l'
      end
  end.

(** bulk_load.rs:19, the element type of [nodes] *)
Definition bl_node := (node_id * (option K * option K) * A)%type.
Definition bl_id (n : bl_node) : node_id := fst (fst n).
Definition bl_start (n : bl_node) : option K := fst (snd (fst n)).
Definition bl_aug (n : bl_node) : A := snd n.

(** bulk_load.rs:23-50: the loop creating the leaves; returns the store, the
    nodes and the item count *)
Fixpoint bulk_leaves (fuel : nat) (s : store) (data : list (K * V)) (prev : option nat)
    (nodes : list bl_node) (count : nat) : outcome (store * list bl_node * nat) :=
  match fuel with
  | 0 => OutOfFuel
  | S fuel' =>
      let! '(l, data) := leaf_set_data leaf_new data in
      if decide (l_size l = 0) then Ok (s, nodes, count) else
      let '(id, s) := reserve_leaf s in
      let l := leaf_set_prev l prev in
      let! s :=
        match prev with
        | Some p => let! pl := get_leaf s p in Ok (put_leaf s p (leaf_set_next pl (Some id)))
        | None => Ok s
        end in
      let! r := leaf_key_range l in
      let! a := leaf_aug l in
      let! s := assign_leaf s id l in
      bulk_leaves fuel' s data (Some id) (nodes ++ [(NLeaf id, r, a)]) (count + l_size l)
  end.

(** [start_key.clone().expect(..)] for every child but the first
    (bulk_load.rs:84-86) *)
Fixpoint expect_all (l : list (option K)) : outcome (list K) :=
  match l with
  | [] => Ok []
  | None :: _ => Panic
  | Some k :: l' => let! r := expect_all l' in Ok (k :: r)
  end.

(** bulk_load.rs:79-99: one inner node per chunk of at most [INNER_N + 1] children
    ([chunks(child_n)]; [node_num] is the number of chunks) *)
Fixpoint bulk_chunks (fuel : nat) (s : store) (nodes : list bl_node) (acc : list bl_node)
  : outcome (store * list bl_node) :=
  match nodes with
  | [] => Ok (s, acc)
  | first :: _ =>
      match fuel with
      | 0 => OutOfFuel
      | S fuel' =>
          let childs := take (INNER_N + 1) nodes in
          let rest := drop (INNER_N + 1) nodes in
          let start_key := bl_start first in
          let end_key := match List.last childs first with x => bl_start x end in
          let! keys := expect_all (map bl_start (drop 1 childs)) in
          let! n := inner_new_from_iter keys (map bl_id childs) (map bl_aug childs) in
          let! a := inner_aug n in
          let '(id, s) := add_inner s n in
          bulk_chunks fuel' s rest (acc ++ [(NInner id, (start_key, end_key), a)])
      end
  end.

(** bulk_load.rs:59-102 [build_inner_layer] *)
Fixpoint build_inner_layer (fuel : nat) (s : store) (nodes : list bl_node)
  : outcome (store * node_id) :=
  match nodes with
  | [] => Panic
  | [n] => Ok (s, bl_id n)
  | _ =>
      match fuel with
      | 0 => OutOfFuel
      | S fuel' =>
          let! '(s, nodes) := bulk_chunks (length nodes) s nodes [] in
          build_inner_layer fuel' s nodes
      end
  end.

(** bulk_load.rs:8-55 [bulk_load] *)
Definition bulk_load (data : list (K * V)) : outcome tree :=
  match data with
  | [] => Ok tree_new
  | _ =>
      let items := dedup_keep_last None data in
      let! '(s, nodes, count) :=
        bulk_leaves (S (length items)) store_default items None [] 0 in
      let! '(s, root) := build_inner_layer (length nodes) s nodes in
      new_from_parts s root count
  end.

(** [slice::sort_by] of the standard library, a stable sort, modelled by
    insertion sort (the result of a stable sort is unique) *)
Fixpoint sort_insert (x : K * V) (l : list (K * V)) : list (K * V) :=
  match l with
  | [] => [x]
  | y :: l' => match kcmp (fst y) (fst x) with
               | Lt => y :: sort_insert x l'
               | _ => x :: y :: l'
               end
  end.
Definition sort_by_key (l : list (K * V)) : list (K * V) := foldr sort_insert [] l.

(** map.rs:300-306 and set.rs:246-252 [from_iter] *)
Definition from_iter (items : list (K * V)) : outcome tree := bulk_load (sort_by_key items).

End BulkLoad.
