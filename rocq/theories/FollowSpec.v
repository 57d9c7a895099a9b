(** Where a user's search leads, whatever it answers. *)
From stdpp Require Import list.
From Verif Require Import Base Slots LeafNode InnerNode Store Tree Augment View.

(** It gives up, ends at the entry with this index, or indexes a node at a place
    where the node has nothing. *)
Inductive landing := Nothing | Entry (j : nat) | Outside.
Definition later (n : nat) (x : landing) : landing :=
  match x with Entry j => Entry (n + j) | _ => x end.

Section Follow.
Context {K V A Q : Type} {SO : SearchOps K V A Q}.

(** The summaries an inner node holds. *)
Definition held (T : tree K V A) (id : nat) : list A :=
  match get_inner (t_store T) id with
  | Ok n => match inner_augmentations n with Ok l => l | _ => [] end
  | _ => []
  end.

Fixpoint follow (au : nat -> list A) (w : view K V) (q : Q) : landing :=
  match w with
  | VLeaf _ kvs =>
      match locate_in_leaf (A:=A) q (map fst kvs) (map snd kvs) with
      | None => Nothing
      | Some i => if decide (i < length kvs) then Entry i else Outside
      end
  | VInner id ks ch =>
      match locate_in_inner (V:=V) q ks (au id) with
      | None => Nothing
      | Some (i, q') =>
          later (length (concat (map view_entries (take i ch)))) (nth i (map (fun c => follow au c q') ch) Outside)
      end
  end.
End Follow.
