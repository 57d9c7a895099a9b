(** A correctly linked list of leaves, for C69. *)
From stdpp Require Import list.
From Verif Require Import Base Slots LeafNode InnerNode Store.

(** [ids] are live leaves, each naming the next one, and from the second on the
    one before it. *)
Definition list_links {K V A} (s : store K V A) (ids : list nat) : Prop :=
  forall i id, ids !! i = Some id -> exists n, get_leaf s id = Ok n /\
    l_next n = ids !! S i /\ forall j, i = S j -> l_prev n = ids !! j.
