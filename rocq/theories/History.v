(** Histories: how a program builds a tree and what it then calls on it, with
    the results the same calls give on a sorted association list. *)
From stdpp Require Import list sorting.
From Verif Require Import Base Slots BinSearch LeafNode InnerNode Store Tree Remove Iterators Observe
  BulkLoad Spec.

(** How the tree comes into being: [BPlusTree::new], [bulk_load] (of data sorted
    by key), [collect]. *)
Inductive start (K V : Type) :=
| SNew
| SBulk (data : list (K * V))
| SCollect (data : list (K * V)).
Arguments SNew {K V}. Arguments SBulk {K V}. Arguments SCollect {K V}.

(** The calls.  Lookups take a probe: the comparison of a stored key with the
    argument ([probe_key k] for a lookup by key). *)
Inductive op (K V : Type) :=
| OInsert (k : K) (v : V)
| ORemove (p : probe K)
| OGet (p : probe K)
| OGetMut (p : probe K) (f : V -> V)
| OFirst | OLast | OLen | OIsEmpty
| OIter | OIterRev
| OClear | OClone
(** readers sharing the tree left this in the leaf cache *)
| OReaders (c : option nat).
Arguments OInsert {K V}. Arguments ORemove {K V}. Arguments OGet {K V}. Arguments OGetMut {K V}.
Arguments OFirst {K V}. Arguments OLast {K V}. Arguments OLen {K V}. Arguments OIsEmpty {K V}.
Arguments OIter {K V}. Arguments OIterRev {K V}. Arguments OClear {K V}. Arguments OClone {K V}.
Arguments OReaders {K V}.

Inductive res (K V : Type) :=
| RVal (o : option V)
| REntry (o : option (K * V))
| RNum (n : nat)
| RBool (b : bool)
| RList (l : list (K * V))
| RUnit.
Arguments RVal {K V}. Arguments REntry {K V}. Arguments RNum {K V}. Arguments RBool {K V}.
Arguments RList {K V}. Arguments RUnit {K V}.

Section History.
Context {K V A : Type} {KO : KeyOps K} {PF : Profile} {AO : AugOps K V A}.
Notation tree := (tree K V A).

(** ** The model *)

(** vec_backed.rs:4-9 and 224-227: other readers store to the atomic [cached_leaf] *)
Definition with_cache (T : tree) (c : option nat) : tree :=
  with_store T (mkStore (inners (t_store T)) (leaves (t_store T)) c).
Definition begin (b : start K V) : outcome tree :=
  match b with
  | SNew => Ok tree_new
  | SBulk data => bulk_load data
  | SCollect data => from_iter data
  end.

Definition step (T : tree) (o : op K V) : outcome (res K V * tree) :=
  match o with
  | OInsert k v => let! '(r, T) := insert T k v in Ok (RVal r, T)
  | ORemove p => let! '(r, T) := remove T p in Ok (RVal r, T)
  | OGet p => let! '(r, T) := get T p in Ok (RVal r, T)
  | OGetMut p f => let! '(r, T) := get_mut T p f in Ok (RVal r, T)
  | OFirst => let! r := first T in Ok (REntry r, T)
  | OLast => let! r := last T in Ok (REntry r, T)
  | OLen => Ok (RNum (t_len T), T)
  | OIsEmpty => Ok (RBool (is_empty T), T)
  | OIter => let! r := entries T in Ok (RList r, T)
  | OIterRev => let! r := entries_rev T in Ok (RList r, T)
  | OClear => let! T := clear T in Ok (RUnit, T)
  | OClone => let! T := tree_clone T in Ok (RUnit, T)
  | OReaders c => Ok (RUnit, with_cache T c)
  end.

Fixpoint run (T : tree) (ops : list (op K V)) : outcome (list (res K V) * tree) :=
  match ops with
  | [] => Ok ([], T)
  | o :: ops' =>
      let! '(r, T) := step T o in
      let! '(rs, T) := run T ops' in
      Ok (r :: rs, T)
  end.

Definition exec (b : start K V) (ops : list (op K V)) : outcome (list (res K V) * tree) :=
  let! T := begin b in run T ops.

(** ** The specification *)

Definition spec_begin (b : start K V) : list (K * V) :=
  match b with
  | SNew => []
  | SBulk data | SCollect data => spec_load data
  end.

Definition spec_step (l : list (K * V)) (o : op K V) : res K V * list (K * V) :=
  match o with
  | OInsert k v => (RVal (spec_get (probe_key k) l), spec_insert k v l)
  | ORemove p => (RVal (spec_get p l), spec_remove p l)
  | OGet p => (RVal (spec_get p l), l)
  | OGetMut p f => (RVal (spec_get p l), spec_update p f l)
  | OFirst => (REntry (head l), l)
  | OLast => (REntry (list.last l), l)
  | OLen => (RNum (length l), l)
  | OIsEmpty => (RBool (match l with [] => true | _ => false end), l)
  | OIter => (RList l, l)
  | OIterRev => (RList (rev l), l)
  | OClear => (RUnit, [])
  | OClone => (RUnit, l)
  | OReaders _ => (RUnit, l)
  end.

Fixpoint spec_run (l : list (K * V)) (ops : list (op K V)) : list (res K V) * list (K * V) :=
  match ops with
  | [] => ([], l)
  | o :: ops' =>
      let '(r, l) := spec_step l o in
      let '(rs, l) := spec_run l ops' in
      (r :: rs, l)
  end.

Definition spec_exec (b : start K V) (ops : list (op K V)) : list (res K V) * list (K * V) :=
  spec_run (spec_begin b) ops.

(** ** Legal histories *)
Definition start_ok (b : start K V) : Prop :=
  match b with SBulk data => key_sorted data | _ => True end.
Definition op_ok (o : op K V) : Prop :=
  match o with ORemove p | OGet p | OGetMut p _ => probe_ok p | _ => True end.
(** Removal is covered for trees built without an undersized last inner node, and,
    if the augmentation has drop glue, while fewer than 272 entries are stored (see
    [bulk_remove_panics] and [augmentation_double_drop_refuted] for why). *)
Definition drop_ok (l : list (K * V)) : Prop :=
  aug_needs_drop (K:=K) (V:=V) (A:=A) = false \/ length l < 272.
Definition removal_ok (b : start K V) (l : list (K * V)) : Prop :=
  orphan_free (length (spec_begin b)) /\ drop_ok l.
Definition is_remove (o : op K V) : Prop := match o with ORemove _ => True | _ => False end.
Definition is_write (o : op K V) : Prop := match o with OGetMut _ _ => True | _ => False end.

(** The map never holds [2 ^ 64] entries ([len] is a [usize]). *)
Fixpoint fits (l : list (K * V)) (ops : list (op K V)) : Prop :=
  (N.of_nat (length l) < 2 ^ 64)%N /\
  match ops with
  | [] => True
  | o :: ops' => fits (spec_step l o).2 ops'
  end.

Fixpoint drops_ok (l : list (K * V)) (ops : list (op K V)) : Prop :=
  match ops with
  | [] => True
  | o :: ops' => (is_remove o -> drop_ok l) /\ drops_ok (spec_step l o).2 ops'
  end.

Record legal (b : start K V) (ops : list (op K V)) : Prop := {
  legal_start : start_ok b;
  legal_ops : Forall op_ok ops;
  legal_size : fits (spec_begin b) ops;
  legal_remove : Exists is_remove ops -> orphan_free (length (spec_begin b));
  legal_drops : drops_ok (spec_begin b) ops;
}.

(** The same without the condition on the size of a bulk load.  Such a history may
    stop at a removal (see [bulk_remove_panics]); if it does not, its tree is as good
    as any other. *)
Record proper (b : start K V) (ops : list (op K V)) : Prop := {
  proper_start : start_ok b;
  proper_ops : Forall op_ok ops;
  proper_size : fits (spec_begin b) ops;
  proper_drops : drops_ok (spec_begin b) ops;
}.

(** The trees a program can hold, with the contents the specification gives. *)
Definition reachable (b : start K V) (T : tree) (l : list (K * V)) : Prop :=
  exists ops rs, proper b ops /\ exec b ops = Ok (rs, T) /\ (spec_exec b ops).2 = l.

End History.
