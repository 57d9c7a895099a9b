(** Reading a tree that an interrupted update left behind. *)
From stdpp Require Import list.
From Verif Require Import Base LeafNode InnerNode Store Tree.

(** The same tree with another word in the leaf cache: lookups write it, and
    other threads' lookups do. *)
Definition recached {K V A} (T : tree K V A) (w : option nat) : tree K V A :=
  with_store T (mkStore (inners (t_store T)) (leaves (t_store T)) w).

(** How many times the tree has begun to merge two leaves (its own statistics). *)
Definition leaf_merges {K V A} (T : tree K V A) : nat :=
  merge_with_left_leaf (t_st T) + merge_with_right_leaf (t_st T).
