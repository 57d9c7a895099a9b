(** When a history merges two inner nodes. *)
From stdpp Require Import list.
From Verif Require Import Base Tree Remove History.

Section DropSpec.
Context {K V A : Type} {KO : KeyOps K} {PF : Profile}.

(** The same augmentation, with dropping a value doing nothing. *)
Definition nodrop (AO : AugOps K V A) : AugOps K V A :=
  {| from_leaf := from_leaf; from_inner := from_inner (V:=V); aug_default := aug_default (K:=K) (V:=V);
     aug_needs_drop := false |}.

(** mod.rs:835-847 [Statistic]: the counters the tree keeps of merged inner nodes *)
Definition inner_merges (st : statistic) : nat := merge_with_left_inner st + merge_with_right_inner st.

(** One of the calls is a removal that merges inner nodes (observed on the same
    history over the augmentation without drop glue). *)
Definition merges (AO : AugOps K V A) (b : start K V) (ops : list (op K V)) : Prop :=
  exists ops1 p ops2 rs T r T', ops = ops1 ++ ORemove p :: ops2 /\
    exec (AO:=nodrop AO) b ops1 = Ok (rs, T) /\
    remove (AO:=nodrop AO) T p = Ok (r, T') /\
    inner_merges (t_st T) < inner_merges (t_st T').
End DropSpec.
