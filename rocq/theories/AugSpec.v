(** What it means for an augmentation to summarise runs of entries. *)
From stdpp Require Import list.
From Verif Require Import Base Spec.

Section AugSpec.
Context {K V A : Type} {KO : KeyOps K} {PF : Profile} {AO : AugOps K V A}.

(** [R a l]: the augmentation [a] describes the run of entries [l].  The summary
    of a leaf describes its entries, the summary of an inner node describes the
    entries of its children if theirs do, and the default describes no entries. *)
Record summary_ok (R : A -> list (K * V) -> Prop) : Prop := {
  so_leaf : forall kvs, ascending kvs -> length kvs <= 64 -> R (from_leaf (map fst kvs) (map snd kvs)) kvs;
  so_inner : forall ks aus ls, ascending (concat ls) -> ls <> [] -> Forall (fun l => l <> []) ls ->
    Forall2 R aus ls -> R (from_inner (V:=V) ks aus) (concat ls);
  so_default : R (aug_default (K:=K) (V:=V)) [];
}.

(** [from_leaf] looks at the keys only. *)
Definition key_aug : Prop :=
  forall ks (vs vs' : list V), length vs = length vs' -> from_leaf (A:=A) ks vs = from_leaf ks vs'.
End AugSpec.
