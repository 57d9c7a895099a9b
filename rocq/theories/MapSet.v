(** src/set.rs and src/merge_iter.rs.  src/map.rs only forwards to the tree:
    its methods are the functions of Tree.v, Remove.v, ... themselves. *)
From stdpp Require Import list.
From Verif Require Import Base Slots BinSearch LeafNode InnerNode Store Tree Remove
  Iterators BulkLoad Augment.

Section Set_.
Context {K : Type} {KO : KeyOps K} {PF : Profile}.

(** set.rs:6-8 [BPlusTreeSet]: a tree with value type [()] and no augmentation *)
Definition set_tree := tree K unit unit.
Local Instance set_aug : AugOps K unit unit := unit_aug.

(** set.rs:26-32 [new] *)
Definition set_new : set_tree := tree_new.
(** set.rs:83-85 [insert] *)
Definition set_insert (t : set_tree) (k : K) : outcome (bool * set_tree) :=
  let! '(r, t) := insert t k tt in
  Ok (match r with None => true | Some _ => false end, t).
(** set.rs:100-106 [remove] *)
Definition set_remove (t : set_tree) (p : probe K) : outcome (bool * set_tree) :=
  let! '(r, t) := remove t p in
  Ok (match r with Some _ => true | None => false end, t).
(** set.rs:121-127 [contains] *)
Definition set_contains (t : set_tree) (p : probe K) : outcome (bool * set_tree) :=
  let! '(r, t) := get t p in
  Ok (match r with Some _ => true | None => false end, t).
(** set.rs:163-185 [first], [last] *)
Definition set_first (t : set_tree) : outcome (option K) :=
  let! r := first t in Ok (fst <$> r).
Definition set_last (t : set_tree) : outcome (option K) :=
  let! r := last t in Ok (fst <$> r).
(** set.rs:143-145 [clear] *)
Definition set_clear (t : set_tree) : outcome set_tree := clear t.
(** set.rs:203-207, 295-312 [iter] *)
Definition set_iter_next (t : set_tree) (it : iter) : outcome (option K * iter) :=
  let! '(r, it) := iter_next t it in Ok (fst <$> r, it).
Definition set_iter_next_back (t : set_tree) (it : iter) : outcome (option K * iter) :=
  let! '(r, it) := iter_next_back t it in Ok (fst <$> r, it).
(** set.rs:246-252 [from_iter] *)
Definition set_from_iter (ks : list K) : outcome set_tree :=
  from_iter (map (fun k => (k, tt)) ks).

(** set.rs:50-69 [len], [is_empty] *)
Definition set_len (t : set_tree) : nat := t_len t.
Definition set_is_empty (t : set_tree) : bool := is_empty t.
(** set.rs:275-279, 330-340 [into_iter] *)
Definition set_into_iter (t : set_tree) : outcome (into_iter K unit unit) := into_iter_new t.
Definition set_into_next (it : into_iter K unit unit) : outcome (option K * into_iter K unit unit) :=
  let! '(r, it) := into_iter_next it in Ok (fst <$> r, it).
Definition set_into_next_back (it : into_iter K unit unit) : outcome (option K * into_iter K unit unit) :=
  let! '(r, it) := into_iter_next_back it in Ok (fst <$> r, it).

(** merge_iter.rs:17-21 [Peeked], 9-13 [MergeIterInner] over two set iterators *)
Inductive peeked := PeekedA (k : K) | PeekedB (k : K).
Record merge_iter := mkMerge {
  mi_a : iter;
  mi_b : iter;
  mi_peeked : option peeked;
}.

(** set.rs:229-232 [union], merge_iter.rs:53-55 [new] *)
Definition set_union (a b : set_tree) : outcome merge_iter :=
  let! ia := iter_new a in
  let! ib := iter_new b in
  Ok (mkMerge ia ib None).

(** merge_iter.rs:64-95 [nexts] with [cmp] the key order *)
Definition merge_nexts (a b : set_tree) (m : merge_iter)
  : outcome (option K * option K * merge_iter) :=
  let! '(an, bn, ia, ib) :=
    match mi_peeked m with
    | Some (PeekedA x) => let! '(bn, ib) := set_iter_next b (mi_b m) in
                          Ok (Some x, bn, mi_a m, ib)
    | Some (PeekedB x) => let! '(an, ia) := set_iter_next a (mi_a m) in
                          Ok (an, Some x, ia, mi_b m)
    | None => let! '(an, ia) := set_iter_next a (mi_a m) in
              let! '(bn, ib) := set_iter_next b (mi_b m) in
              Ok (an, bn, ia, ib)
    end in
  Ok (match an, bn with
      | Some x, Some y =>
          match kcmp x y with
          | Lt => (Some x, None, mkMerge ia ib (Some (PeekedB y)))
          | Gt => (None, Some y, mkMerge ia ib (Some (PeekedA x)))
          | Eq => (Some x, Some y, mkMerge ia ib None)
          end
      | _, _ => (an, bn, mkMerge ia ib None)
      end).

(** set.rs:362-365 [Union::next] *)
Definition union_next (a b : set_tree) (m : merge_iter) : outcome (option K * merge_iter) :=
  let! '(an, bn, m) := merge_nexts a b m in
  Ok (match an with Some x => Some x | None => bn end, m).

(** merge_iter.rs:98-107 [lens], set.rs:367-371 [Union::size_hint] *)
Definition merge_lens (m : merge_iter) : nat * nat :=
  match mi_peeked m with
  | Some (PeekedA _) => (1 + iter_size_hint (mi_a m), iter_size_hint (mi_b m))
  | Some (PeekedB _) => (iter_size_hint (mi_a m), 1 + iter_size_hint (mi_b m))
  | None => (iter_size_hint (mi_a m), iter_size_hint (mi_b m))
  end.
Definition union_size_hint (m : merge_iter) : nat * nat :=
  let '(a, b) := merge_lens m in (Nat.max a b, a + b).

(** set.rs:373-375 [Union::min] *)
Definition union_min (a b : set_tree) (m : merge_iter) : outcome (option K) :=
  let! '(r, _) := union_next a b m in Ok r.

End Set_.
Arguments peeked : clear implicits.
Arguments merge_iter : clear implicits.
Arguments set_tree : clear implicits.
