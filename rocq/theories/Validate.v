(** src/tree/mod.rs:791-816: [validate], the check of the leaf links that test
    builds run after every bulk load (mod.rs:129). *)
From stdpp Require Import list.
From Verif Require Import Base Slots LeafNode InnerNode Store Tree.

Section Validate.
Context {K V A : Type} {PF : Profile}.
Notation tree := (tree K V A).

(** mod.rs:799-815: the loop.  [last] is [last_leaf_id].  A round visits one leaf,
    so with more rounds than slots in the store the loop goes round in circles:
    [OutOfFuel] stands for a loop that never ends. *)
Fixpoint validate_loop (fuel : nat) (s : store K V A) (last : option nat) (id : nat) : outcome unit :=
  match fuel with
  | 0 => OutOfFuel
  | S fuel =>
      let! leaf := get_leaf s id in
      let! _ := match last with
                | None => Ok tt
                | Some last => match l_prev leaf with
                               | None => Panic
                               | Some p => if decide (last = p) then Ok tt else Panic
                               end
                end in
      match l_next leaf with
      | None => Ok tt
      | Some n => validate_loop fuel s (Some id) n
      end
  end.

(** mod.rs:791-816 [validate] *)
Definition validate (T : tree) : outcome unit :=
  let! id := first_leaf T in
  validate_loop (S (length (leaves (t_store T)))) (t_store T) None id.
End Validate.
