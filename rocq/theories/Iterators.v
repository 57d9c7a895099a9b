(** src/tree/iterator.rs and [clear], [Drop] of mod.rs *)
From stdpp Require Import list.
From Verif Require Import Base Slots BinSearch LeafNode InnerNode Store Tree.

(** iterator.rs:9-16 [Iter].  The node references it holds are represented by
    leaf ids; the store cannot change while the iterator borrows the tree. *)
Record iter := mkIter {
  it_len : nat;
  it_leaf : option nat;
  it_off : nat;
  it_end : option (nat * nat);
}.

(** iterator.rs:116-123 [IntoIter] *)
Record into_iter (K V A : Type) := mkIntoIter {
  ii_store : store K V A;
  ii_len : nat;
  ii_pos : nat * nat;
  ii_end : nat * nat;
}.
Arguments mkIntoIter {K V A}.
Arguments ii_store {K V A}. Arguments ii_len {K V A}.
Arguments ii_pos {K V A}. Arguments ii_end {K V A}.

Section Iterators.
Context {K V A : Type} {KO : KeyOps K} {PF : Profile} {AO : AugOps K V A}.
Notation store := (store K V A).
Notation tree := (tree K V A).
Notation into_iter := (into_iter K V A).

(** iterator.rs:19-30 [Iter::new], mod.rs:626 [iter] *)
Definition iter_new (t : tree) : outcome iter :=
  let! id := first_leaf t in
  let! _ := get_leaf (t_store t) id in
  Ok (mkIter (t_len t) (Some id) 0 None).

(** iterator.rs:37-39 [size_hint] (both bounds) and [ExactSizeIterator::len] *)
Definition iter_size_hint (it : iter) : nat := it_len it.

(** iterator.rs:41-70 [Iter::next] *)
Definition iter_next (t : tree) (it : iter) : outcome (option (K * V) * iter) :=
  if decide (it_len it = 0) then Ok (None, it) else
  match it_leaf it with
  | None => Ok (None, it)
  | Some id =>
      let! l := get_leaf (t_store t) id in
      let! kv := leaf_data_at l (it_off it) in
      if decide (it_off it + 1 < l_size l) then
        Ok (Some kv, mkIter (it_len it - 1) (Some id) (it_off it + 1) (it_end it))
      else
        match l_next l with
        | Some next =>
            let! _ := get_leaf (t_store t) next in
            Ok (Some kv, mkIter (it_len it - 1) (Some next) 0 (it_end it))
        | None => Ok (Some kv, mkIter (it_len it - 1) None 0 (it_end it))
        end
  end.

(** iterator.rs:74-110 [Iter::next_back] *)
Definition iter_next_back (t : tree) (it : iter) : outcome (option (K * V) * iter) :=
  if decide (it_len it = 0) then Ok (None, it) else
  match it_end it with
  | Some (id, off) =>
      let! l := get_leaf (t_store t) id in
      if decide (0 < off) then
        let off := off - 1 in
        let! kv := leaf_data_at l off in
        Ok (Some kv, mkIter (it_len it) (it_leaf it) (it_off it) (Some (id, off)))
      else
        match l_prev l with
        | None => Ok (None, it)
        | Some prev_id =>
            let! l := get_leaf (t_store t) prev_id in
            let! off := usize_pred (l_size l) in
            let! kv := leaf_data_at l off in
            Ok (Some kv, mkIter (it_len it) (it_leaf it) (it_off it) (Some (prev_id, off)))
        end
  | None =>
      let! id := last_leaf t in
      let! l := get_leaf (t_store t) id in
      if decide (l_size l = 0) then Ok (None, it) else
      let off := l_size l - 1 in
      let! kv := leaf_data_at l off in
      Ok (Some kv, mkIter (it_len it) (it_leaf it) (it_off it) (Some (id, off)))
  end.

(** iterator.rs:126-141 [IntoIter::new], mod.rs:824-831 [into_iter],
    mod.rs:200-207 [into_parts] *)
Definition into_iter_new (t : tree) : outcome into_iter :=
  let! f := first_leaf t in
  let! l := last_leaf t in
  let! ln := get_leaf (t_store t) l in
  Ok (mkIntoIter (t_store t) (t_len t) (f, 0) (l, l_size ln)).

(** iterator.rs:152-183 [IntoIter::next]; fuel bounds the recursion *)
Fixpoint into_iter_next_loop (fuel : nat) (it : into_iter)
  : outcome (option (K * V) * into_iter) :=
  if decide (ii_len it = 0) then Ok (None, it) else
  match fuel with
  | 0 => OutOfFuel
  | S fuel' =>
      let '(id, off) := ii_pos it in
      let! l := get_leaf (ii_store it) id in
      if decide (off < l_size l) then
        let! '(kv, l) := leaf_take_data l off in
        Ok (Some kv, mkIntoIter (put_leaf (ii_store it) id l) (ii_len it - 1)
                       (id, off + 1) (ii_end it))
      else
        match l_next l with
        | Some next =>
            into_iter_next_loop fuel' (mkIntoIter (ii_store it) (ii_len it) (next, 0) (ii_end it))
        | None => Panic
        end
  end.
Definition into_iter_next (it : into_iter) : outcome (option (K * V) * into_iter) :=
  into_iter_next_loop (S (length (leaves (ii_store it)))) it.

(** iterator.rs:187-218 [IntoIter::next_back] *)
Fixpoint into_iter_next_back_loop (fuel : nat) (it : into_iter)
  : outcome (option (K * V) * into_iter) :=
  if decide (ii_len it = 0) then Ok (None, it) else
  match fuel with
  | 0 => OutOfFuel
  | S fuel' =>
      let '(id, off) := ii_end it in
      let! l := get_leaf (ii_store it) id in
      if decide (0 < off) then
        let! '(kv, l) := leaf_take_data l (off - 1) in
        Ok (Some kv, mkIntoIter (put_leaf (ii_store it) id l) (ii_len it - 1)
                       (ii_pos it) (id, off - 1))
      else
        match l_prev l with
        | Some prev =>
            let! pl := get_leaf (ii_store it) prev in
            into_iter_next_back_loop fuel'
              (mkIntoIter (ii_store it) (ii_len it) (ii_pos it) (prev, l_size pl))
        | None => Panic
        end
  end.
Definition into_iter_next_back (it : into_iter) : outcome (option (K * V) * into_iter) :=
  into_iter_next_back_loop (S (length (leaves (ii_store it)))) it.

(** Dropping the boxes of the store's two vectors (compiler generated drop glue
    of [NodeStoreVec]): every remaining inner node is dropped; leaf nodes have no
    drop code of their own *)
Fixpoint drop_inners (l : list (option (inner K A))) : outcome unit :=
  match l with
  | [] => Ok tt
  | None :: l' => drop_inners l'
  | Some n :: l' => let! _ := inner_drop (aug_needs_drop (K:=K) (V:=V) (A:=A)) n in drop_inners l'
  end.

Fixpoint drop_leaves (l : list (option (leaf K V))) : outcome unit :=
  match l with
  | [] => Ok tt
  | None :: l' => drop_leaves l'
  | Some n :: l' => let! _ := leaf_drop n in drop_leaves l'
  end.

(** iterator.rs:224-229 [Drop for IntoIter]: runs [next] until [None]; returns the
    entries it dropped.  Fuel: [ii_len + 1] calls. *)
Fixpoint into_iter_drain (fuel : nat) (it : into_iter)
  : outcome (list (K * V) * into_iter) :=
  match fuel with
  | 0 => OutOfFuel
  | S fuel' =>
      let! '(r, it) := into_iter_next it in
      match r with
      | None => Ok ([], it)
      | Some kv => let! '(l, it) := into_iter_drain fuel' it in Ok (kv :: l, it)
      end
  end.
Definition into_iter_drop (it : into_iter) : outcome (list (K * V)) :=
  let! '(l, it) := into_iter_drain (S (ii_len it)) it in
  let! _ := drop_inners (inners (ii_store it)) in
  let! _ := drop_leaves (leaves (ii_store it)) in
  Ok l.

(** mod.rs:818-822 [Drop for BPlusTree]: returns the entries dropped *)
Definition tree_drop (t : tree) : outcome (list (K * V)) :=
  let! it := into_iter_new t in into_iter_drop it.

(** mod.rs:663-666 [clear]: replaced by a new tree, the old one is dropped *)
Definition clear (t : tree) : outcome tree :=
  let! _ := tree_drop t in Ok tree_new.

(** [#[derive(Clone)]] on BPlusTree, mod.rs:86 *)
Definition tree_clone (t : tree) : outcome tree :=
  let! s := store_clone (t_store t) in
  Ok (mkTree (t_root t) (t_aug t) (t_len t) s (t_st t)).

End Iterators.
