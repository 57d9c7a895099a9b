(** Histories of calls on [BPlusTreeSet], next to the same calls on a sorted list
    of keys; what a caller sees of a set iterator and of [union]. *)
From stdpp Require Import list sorting.
From Verif Require Import Base Slots BinSearch LeafNode InnerNode Store Tree Remove Iterators Observe
  BulkLoad Augment Spec MapSet.

Inductive set_op (K : Type) :=
| SoInsert (k : K)
| SoRemove (p : probe K)
| SoContains (p : probe K)
| SoFirst | SoLast | SoLen | SoIsEmpty
| SoIter | SoIterRev
| SoClear.
Arguments SoInsert {K}. Arguments SoRemove {K}. Arguments SoContains {K}. Arguments SoFirst {K}.
Arguments SoLast {K}. Arguments SoLen {K}. Arguments SoIsEmpty {K}. Arguments SoIter {K}.
Arguments SoIterRev {K}. Arguments SoClear {K}.

(** [new] and [from_iter] *)
Inductive set_start (K : Type) := StNew | StCollect (ks : list K).
Arguments StNew {K}. Arguments StCollect {K}.

Inductive set_res (K : Type) :=
| SrBool (b : bool)
| SrKey (o : option K)
| SrNum (n : nat)
| SrKeys (l : list K)
| SrUnit.
Arguments SrBool {K}. Arguments SrKey {K}. Arguments SrNum {K}. Arguments SrKeys {K}. Arguments SrUnit {K}.

Section SetHist.
Context {K : Type} {KO : KeyOps K} {PF : Profile}.

(** ** The model *)

(** [set.iter().collect()], [set.iter().rev().collect()] *)
Fixpoint set_collect (fuel : nat) (fwd : bool) (T : set_tree K) (it : iter) : outcome (list K) :=
  match fuel with
  | 0 => OutOfFuel
  | S fuel' =>
      let! '(r, it) := if fwd then set_iter_next T it else set_iter_next_back T it in
      match r with
      | None => Ok []
      | Some k => let! l := set_collect fuel' fwd T it in Ok (k :: l)
      end
  end.
Definition set_keys (fwd : bool) (T : set_tree K) : outcome (list K) :=
  let! it := iter_new T in set_collect (S (set_len T)) fwd T it.

Definition set_begin (b : set_start K) : outcome (set_tree K) :=
  match b with StNew => Ok set_new | StCollect ks => set_from_iter ks end.
Definition set_given (b : set_start K) : list K := match b with StNew => [] | StCollect ks => ks end.

Definition set_step (T : set_tree K) (o : set_op K) : outcome (set_res K * set_tree K) :=
  match o with
  | SoInsert k => let! '(r, T) := set_insert T k in Ok (SrBool r, T)
  | SoRemove p => let! '(r, T) := set_remove T p in Ok (SrBool r, T)
  | SoContains p => let! '(r, T) := set_contains T p in Ok (SrBool r, T)
  | SoFirst => let! r := set_first T in Ok (SrKey r, T)
  | SoLast => let! r := set_last T in Ok (SrKey r, T)
  | SoLen => Ok (SrNum (set_len T), T)
  | SoIsEmpty => Ok (SrBool (set_is_empty T), T)
  | SoIter => let! l := set_keys true T in Ok (SrKeys l, T)
  | SoIterRev => let! l := set_keys false T in Ok (SrKeys l, T)
  | SoClear => let! T := set_clear T in Ok (SrUnit, T)
  end.
Fixpoint set_run (T : set_tree K) (ops : list (set_op K)) : outcome (list (set_res K) * set_tree K) :=
  match ops with
  | [] => Ok ([], T)
  | o :: ops' =>
      let! '(r, T) := set_step T o in
      let! '(rs, T) := set_run T ops' in
      Ok (r :: rs, T)
  end.

(** [into_iter] driven from both ends, and [union] driven [n] times with its
    [size_hint] after every call *)
Fixpoint set_into_drive (it : into_iter K unit unit) (ends : list bool)
  : outcome (list (option K * nat) * into_iter K unit unit) :=
  match ends with
  | [] => Ok ([], it)
  | e :: ends' =>
      let! '(r, it) := if e then set_into_next it else set_into_next_back it in
      let! '(l, it') := set_into_drive it ends' in
      Ok ((r, ii_len it) :: l, it')
  end.
Fixpoint union_drive (a b : set_tree K) (m : merge_iter K) (n : nat) : outcome (list (option K * (nat * nat))) :=
  match n with
  | 0 => Ok []
  | S n' =>
      let! '(r, m) := union_next a b m in
      let! l := union_drive a b m n' in
      Ok ((r, union_size_hint m) :: l)
  end.

(** ** The specification *)
Definition keys_ascending (l : list K) : Prop := StronglySorted (fun x y => kcmp x y = Lt) l.

Definition spec_mem (p : probe K) (l : list K) : bool :=
  existsb (fun k => match p k with Eq => true | _ => false end) l.
(** add a key unless an equal one is there *)
Fixpoint spec_add (k : K) (l : list K) : list K :=
  match l with
  | [] => [k]
  | x :: l' =>
      match kcmp x k with
      | Lt => x :: spec_add k l'
      | Eq => x :: l'
      | Gt => k :: x :: l'
      end
  end.
Definition spec_del (p : probe K) (l : list K) : list K :=
  List.filter (fun k => match p k with Eq => false | _ => true end) l.

Definition set_spec_step (l : list K) (o : set_op K) : set_res K * list K :=
  match o with
  | SoInsert k => (SrBool (negb (spec_mem (probe_key k) l)), spec_add k l)
  | SoRemove p => (SrBool (spec_mem p l), spec_del p l)
  | SoContains p => (SrBool (spec_mem p l), l)
  | SoFirst => (SrKey (head l), l)
  | SoLast => (SrKey (list.last l), l)
  | SoLen => (SrNum (length l), l)
  | SoIsEmpty => (SrBool (match l with [] => true | _ => false end), l)
  | SoIter => (SrKeys l, l)
  | SoIterRev => (SrKeys (rev l), l)
  | SoClear => (SrUnit, [])
  end.
Fixpoint set_spec_run (l : list K) (ops : list (set_op K)) : list (set_res K) * list K :=
  match ops with
  | [] => ([], l)
  | o :: ops' =>
      let '(r, l) := set_spec_step l o in
      let '(rs, l) := set_spec_run l ops' in
      (r :: rs, l)
  end.

Definition set_op_ok (o : set_op K) : Prop :=
  match o with SoRemove p | SoContains p => probe_ok p | _ => True end.
Definition is_set_remove (o : set_op K) : Prop := match o with SoRemove _ => True | _ => False end.
Fixpoint set_fits (l : list K) (ops : list (set_op K)) : Prop :=
  (N.of_nat (length l) < 2 ^ 64)%N /\
  match ops with
  | [] => True
  | o :: ops' => set_fits (set_spec_step l o).2 ops'
  end.

(** [l] is what collecting [ks] into a set gives: of equal keys the last one. *)
Definition collected (ks l : list K) : Prop :=
  keys_ascending l /\
  forall k, k ∈ l <-> exists a z, ks = a ++ k :: z /\ forall k', k' ∈ z -> kcmp k' k <> Eq.

(** [u] is the union of [la] and [lb]: of equal keys the one in [la]. *)
Definition union_is (la lb u : list K) : Prop :=
  keys_ascending u /\
  forall k, k ∈ u <-> k ∈ la \/ (k ∈ lb /\ forall k', k' ∈ la -> kcmp k' k <> Eq).

(** Histories covered: removal needs a set collected without an undersized last
    inner node (see [bulk_remove_panics]). *)
Record set_legal (l0 : list K) (ops : list (set_op K)) : Prop := {
  sl_ops : Forall set_op_ok ops;
  sl_size : set_fits l0 ops;
  sl_remove : Exists is_set_remove ops -> orphan_free (length l0);
}.

(** The sets a program can hold, with their keys. *)
Definition set_reachable (T : set_tree K) (l : list K) : Prop :=
  exists b l0 ops T0 rs, collected (set_given b) l0 /\ Forall set_op_ok ops /\ set_fits l0 ops /\
    set_begin b = Ok T0 /\ set_run T0 ops = Ok (rs, T) /\ (set_spec_run l0 ops).2 = l.
End SetHist.
