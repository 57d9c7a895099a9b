(** The standard library's [slice::binary_search_by]
    (library/core/src/slice/mod.rs), used through [binary_search_by_key] by
    leaf_node.rs:311-317 and inner_node.rs:205-222. *)
From stdpp Require Import list.
From Verif Require Import Base.

Section BinSearch.
Context {K : Type}.

(** The loop of [binary_search_by]: invariant [left <= right <= len],
    [size = right - left].  Fuel bounds the number of iterations. *)
Fixpoint bsearch_loop (fuel : nat) (p : probe K) (l : list K) (left right : nat)
  : outcome (result nat nat) :=
  match fuel with
  | 0 => OutOfFuel
  | S fuel' =>
      if decide (left < right) then
        let mid := left + Nat.div2 (right - left) in
        match l !! mid with
        | None => UB
        | Some x =>
            match p x with
            | Lt => bsearch_loop fuel' p l (S mid) right
            | Gt => bsearch_loop fuel' p l left mid
            | Eq => Ok (ROk mid)
            end
        end
      else Ok (RErr left)
  end.

Definition binary_search (p : probe K) (l : list K) : outcome (result nat nat) :=
  bsearch_loop (S (length l)) p l 0 (length l).

End BinSearch.
