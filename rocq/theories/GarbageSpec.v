(** The inner nodes the store keeps besides those of the tree. *)
From stdpp Require Import list.
From Verif Require Import Base Store Tree View.

Section GarbageSpec.
Context {K V A : Type}.

(** Levels of inner nodes, along the first children. *)
Fixpoint view_height (w : view K V) : nat :=
  match w with
  | VLeaf _ _ => 0
  | VInner _ _ ch => S (match ch with c :: _ => view_height c | [] => 0 end)
  end.
(** vec_backed.rs:5 [inner_nodes]: the slots that hold a node *)
Definition live_inners (T : tree K V A) : nat := length (omap id (inners (t_store T))).
Definition left_over (T : tree K V A) (w : view K V) : nat := live_inners T - length (view_inner_ids w).
End GarbageSpec.
