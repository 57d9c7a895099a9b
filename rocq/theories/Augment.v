(** src/augment/*.rs, src/tree/visit.rs and the augmentation queries of
    src/tree/mod.rs *)
From stdpp Require Import list.
From Verif Require Import Base Slots BinSearch LeafNode InnerNode Store Tree Remove.

(** augment/mod.rs:31-43 [SearchAugmentation] *)
Class SearchOps (K V A Q : Type) := {
  locate_in_leaf : Q -> list K -> list V -> option nat;
  locate_in_inner : Q -> list K -> list A -> option (nat * Q);
}.

(** augment/mod.rs:46-67 [RankAugmentation] *)
Class RankOps (K V A R : Type) := {
  initial_value : R;
  fold_inner : K -> R -> list A -> R;
  fold_leaf : K -> R -> result nat nat -> list K -> result R R;
}.

(** visit.rs:6-21 [DescendVisit], [DescendVisitResult]; the visitor's own state
    has type [S] *)
Inductive visit_result (R : Type) := GoDown (i : nat) | Cancel | Complete (r : R).
Arguments GoDown {R}. Arguments Cancel {R}. Arguments Complete {R}.
Record visitor (K V A S R : Type) := mkVisitor {
  visit_inner : S -> list K -> list A -> S * visit_result R;
  visit_leaf : S -> list K -> list V -> option R;
}.
Arguments mkVisitor {K V A S R}.
Arguments visit_inner {K V A S R}. Arguments visit_leaf {K V A S R}.

Section Queries.
Context {K V A : Type} {KO : KeyOps K} {PF : Profile} {AO : AugOps K V A}.
Notation store := (store K V A).
Notation tree := (tree K V A).

(** mod.rs:669-703 [get_ref_by_augmentation] *)
Fixpoint ref_by_aug_loop {Q} {SO : SearchOps K V A Q} (fuel : nat) (s : store)
    (node : node_id) (q : Q) (stack : visit_stack)
  : outcome (option (visit_stack * nat * nat)) :=
  match node with
  | NLeaf id =>
      let! n := get_leaf s id in
      let! ks := leaf_keys n in
      let! vs := leaf_values n in
      match locate_in_leaf (A:=A) q ks vs with
      | None => Ok None
      | Some slot => Ok (Some (stack, id, slot))
      end
  | NInner id =>
      match fuel with
      | 0 => OutOfFuel
      | S fuel' =>
          let! n := get_inner s id in
          let! ks := inner_keys n in
          let! aus := inner_augmentations n in
          match locate_in_inner (V:=V) q ks aus with
          | None => Ok None
          | Some (off, q') =>
              let! c := inner_child_id n off in
              let! stack := stack_push stack id off c in
              ref_by_aug_loop fuel' s c q' stack
          end
      end
  end.
Definition get_ref_by_augmentation {Q} {SO : SearchOps K V A Q} (t : tree) (q : Q)
  : outcome (option (visit_stack * nat * nat)) :=
  ref_by_aug_loop (descend_fuel (t_store t)) (t_store t) (t_root t) q [].

(** mod.rs:706-712 [get_by_augmentation], 770-774 [get_by_ref] *)
Definition get_by_augmentation {Q} {SO : SearchOps K V A Q} (t : tree) (q : Q)
  : outcome (option (K * V)) :=
  let! r := get_ref_by_augmentation t q in
  match r with
  | None => Ok None
  | Some (_, id, off) =>
      let! n := get_leaf (t_store t) id in
      let! kv := leaf_data_at n off in
      Ok (Some kv)
  end.

(** mod.rs:715-723 [get_mut_by_augmentation], 777-788 [get_mut_by_ref]; the
    caller writes [f] of the value through the reference.  Returns the value
    before the write. *)
Definition get_mut_by_augmentation {Q} {SO : SearchOps K V A Q} (t : tree) (q : Q)
    (f : V -> V) : outcome (option V * tree) :=
  let! r := get_ref_by_augmentation t q in
  match r with
  | None => Ok (None, t)
  | Some (_, id, off) =>
      let! n := get_leaf (t_store t) id in
      let! '(v, n) := leaf_value_at_mut n off f in
      Ok (Some v, with_store t (put_leaf (t_store t) id n))
  end.

(** mod.rs:761-767 [remove_by_augmentation] *)
Definition remove_by_augmentation {Q} {SO : SearchOps K V A Q} (t : tree) (q : Q)
  : outcome (option (K * V) * tree) :=
  let! r := get_ref_by_augmentation t q in
  match r with
  | None => Ok (None, t)
  | Some (stack, id, off) =>
      let! '(kv, t) := remove_by_ref t stack id off in
      Ok (Some kv, t)
  end.

(** mod.rs:726-758 [rank_by_augmentation]; [augmentations()[0..child_idx]] is a
    checked slice *)
Fixpoint rank_loop {R} {RO : RankOps K V A R} (fuel : nat) (s : store)
    (node : node_id) (k : K) (rank : R) : outcome (result R R) :=
  match node with
  | NLeaf id =>
      let! n := get_leaf s id in
      let! slot := leaf_locate_slot n (probe_key k) in
      let! ks := leaf_keys n in
      Ok (fold_leaf (V:=V) (A:=A) k rank slot ks)
  | NInner id =>
      match fuel with
      | 0 => OutOfFuel
      | S fuel' =>
          let! n := get_inner s id in
          let! '(child_idx, c) := inner_locate_child n (probe_key k) in
          let! aus := inner_augmentations n in
          if decide (child_idx <= length aus) then
            rank_loop fuel' s c k (fold_inner (V:=V) k rank (take child_idx aus))
          else Panic
      end
  end.
Definition rank_by_augmentation {R} {RO : RankOps K V A R} (t : tree) (k : K)
  : outcome (result R R) :=
  rank_loop (descend_fuel (t_store t)) (t_store t) (t_root t) k
    (initial_value (K:=K) (V:=V) (A:=A)).

(** visit.rs:25-58 [descend_visit] *)
Fixpoint descend_visit_loop {S R} (fuel : nat) (s : store) (node : node_id)
    (v : visitor K V A S R) (st : S) : outcome (option R) :=
  match node with
  | NLeaf id =>
      let! n := get_leaf s id in
      let! ks := leaf_keys n in
      let! vs := leaf_values n in
      Ok (visit_leaf v st ks vs)
  | NInner id =>
      match fuel with
      | 0 => OutOfFuel
      | Datatypes.S fuel' =>
          let! n := get_inner s id in
          let! ks := inner_keys n in
          let! aus := inner_augmentations n in
          let '(st, r) := visit_inner v st ks aus in
          match r with
          | GoDown i =>
              if decide (i_size n < i) then Panic else
              let! c := inner_child_id n i in
              descend_visit_loop fuel' s c v st
          | Cancel => Ok None
          | Complete r => Ok (Some r)
          end
      end
  end.
Definition descend_visit {S R} (t : tree) (v : visitor K V A S R) (st : S)
  : outcome (option R) :=
  descend_visit_loop (descend_fuel (t_store t)) (t_store t) (t_root t) v st.

End Queries.

(** augment/mod.rs:70-80: [()] *)
Definition unit_aug {K V} : AugOps K V unit := {|
  from_leaf := fun _ _ => tt;
  from_inner := fun _ _ => tt;
  aug_default := tt;
  aug_needs_drop := false;
|}.

(** ** augment/count.rs *)
Section Count.
Context {K V : Type}.

(** count.rs:8, 17-25 [Count]: Augmentation; [usize] addition is unbounded here *)
Definition count_aug : AugOps K V nat := {|
  from_leaf := fun ks _ => length ks;
  from_inner := fun _ cs => list_sum cs;
  aug_default := 0;
  aug_needs_drop := false;
|}.

(** count.rs:39-50 [locate_in_inner]: the loop; [i] is the enumeration index *)
Fixpoint count_locate_inner (i idx : nat) (counts : list nat) : option (nat * nat) :=
  match counts with
  | [] => None
  | a :: counts' =>
      if decide (a <= idx) then count_locate_inner (S i) (idx - a) counts'
      else Some (i, idx)
  end.

(** count.rs:27-51 *)
Definition count_search : SearchOps K V nat nat := {|
  locate_in_leaf := fun idx ks _ => if decide (idx < length ks) then Some idx else None;
  locate_in_inner := fun idx _ counts => count_locate_inner 0 idx counts;
|}.

(** count.rs:53-80 *)
Definition count_rank : RankOps K V nat nat := {|
  initial_value := 0;
  fold_inner := fun _ rank counts => rank + list_sum counts;
  fold_leaf := fun _ rank slot _ =>
    match slot with ROk idx => ROk (idx + rank) | RErr idx => RErr (idx + rank) end;
|}.

End Count.

(** ** augment/group.rs *)

(** group.rs:13-22 [GroupCount] *)
Inductive group_count (G : Type) :=
| GcZero
| GcOne (g : G) (c : nat)
| GcMultiple (min_group : G * nat) (max_group : G * nat) (cnt : nat).
Arguments GcZero {G}. Arguments GcOne {G}. Arguments GcMultiple {G}.

(** The group type: [Ord] (KeyOps) and [FromRef<K>] (group.rs:147-149) *)
Class FromRef (K G : Type) := from_ref : K -> G.

Section Group.
Context {K V G : Type} {GO : KeyOps G} {FR : FromRef K G}.

Definition group_eqb (x y : G) : bool := match kcmp x y with Eq => true | _ => false end.

(** group.rs:35-41 [group_count] *)
Definition gc_group_count (a : group_count G) : nat :=
  match a with
  | GcZero => 0
  | GcOne _ _ => 1
  | GcMultiple _ _ n => n
  end.

(** group.rs:44-54 [max_group] *)
Definition gc_max_group (a : group_count G) : option (G * nat) :=
  match a with
  | GcZero => None
  | GcOne g c => Some (g, c)
  | GcMultiple _ mx _ => Some mx
  end.

(** group.rs:57-143 [merge_with] *)
Definition gc_merge (l r : group_count G) : group_count G :=
  match l, r with
  | GcZero, r => r
  | l, GcZero => l
  | GcOne g1 c1, GcOne g2 c2 =>
      if group_eqb g1 g2 then GcOne g1 (c1 + c2) else GcMultiple (g1, c1) (g2, c2) 2
  | GcOne g1 c1, GcMultiple mn mx n =>
      if group_eqb g1 (fst mn) then GcMultiple (g1, c1 + snd mn) mx n
      else GcMultiple (g1, c1) mx (n + 1)
  | GcMultiple mn mx n, GcOne g2 c2 =>
      if group_eqb g2 (fst mx) then GcMultiple mn (fst mx, snd mx + c2) n
      else GcMultiple mn (g2, c2) (n + 1)
  | GcMultiple lmn lmx ln, GcMultiple rmn rmx rn =>
      let n := ln + rn in
      GcMultiple lmn rmx (if group_eqb (fst lmx) (fst rmn) then n - 1 else n)
  end.

(** group.rs:156-193, the loop of [from_leaf].  State: [group_count],
    [min_group_count], [last_group_count], [last_group] and whether
    [last_group_item_count] points to [last_group_count] ([true]) or to
    [min_group_count] ([false]). *)
Fixpoint gc_leaf_loop (ks : list K) (cnt mn la : nat) (last_group : G) (at_last : bool)
  : nat * nat * nat * G :=
  match ks with
  | [] => (cnt, mn, la, last_group)
  | k :: ks' =>
      let g := from_ref k in
      if negb (group_eqb last_group g) then gc_leaf_loop ks' (cnt + 1) mn la g true
      else if at_last then gc_leaf_loop ks' cnt mn (la + 1) last_group at_last
      else gc_leaf_loop ks' cnt (mn + 1) la last_group at_last
  end.

(** group.rs:156-193 [from_leaf] *)
Definition gc_from_leaf (ks : list K) : group_count G :=
  match ks with
  | [] => GcZero
  | k :: ks' =>
      let first := from_ref k in
      let '(cnt, mn, la, last_group) := gc_leaf_loop ks' 1 1 1 first false in
      match cnt with
      | 1 => GcOne first mn
      | _ => GcMultiple (first, mn) (last_group, la) cnt
      end
  end.

(** group.rs:195-203 [from_inner] *)
Definition gc_from_inner (l : list (group_count G)) : group_count G :=
  fold_left gc_merge l GcZero.

(** group.rs:151-204.  Whether dropping does anything depends on the group type. *)
Definition group_aug (needs_drop : bool) : AugOps K V (group_count G) := {|
  from_leaf := fun ks _ => gc_from_leaf ks;
  from_inner := fun _ l => gc_from_inner l;
  aug_default := GcZero;
  aug_needs_drop := needs_drop;
|}.

(** group.rs:214-233 [locate_in_leaf]: the loop *)
Fixpoint gc_locate_leaf (ks : list K) (idx in_group : nat) (g : G) (off : nat) : option nat :=
  match ks with
  | [] => None
  | k :: ks' =>
      match kcmp (from_ref k) g with
      | Lt => gc_locate_leaf ks' (S idx) in_group g off
      | Eq => if decide (in_group = off) then Some idx
              else gc_locate_leaf ks' (S idx) (in_group + 1) g off
      | Gt => None
      end
  end.

(** group.rs:235-272 [locate_in_inner]: the loop *)
Fixpoint gc_locate_inner (l : list (group_count G)) (idx : nat) (g : G) (off : nat)
  : option (nat * (G * nat)) :=
  match l with
  | [] => None
  | a :: l' =>
      match a with
      | GcZero => gc_locate_inner l' (S idx) g off
      | GcOne g1 c =>
          match kcmp g1 g with
          | Lt => gc_locate_inner l' (S idx) g off
          | Eq => if decide (off < c) then Some (idx, (g, off))
                  else gc_locate_inner l' (S idx) g (off - c)
          | Gt => None
          end
      | GcMultiple _ mx _ =>
          match kcmp (fst mx) g with
          | Lt => gc_locate_inner l' (S idx) g off
          | Eq => if decide (off < snd mx) then Some (idx, (g, off))
                  else gc_locate_inner l' (S idx) g (off - snd mx)
          | Gt => Some (idx, (g, off))
          end
      end
  end.

(** group.rs:206-273 *)
Definition group_search : SearchOps K V (group_count G) (G * nat) := {|
  locate_in_leaf := fun q ks _ => gc_locate_leaf ks 0 0 (fst q) (snd q);
  locate_in_inner := fun q _ l => gc_locate_inner l 0 (fst q) (snd q);
|}.

(** group.rs:297-304: walk the earlier siblings backwards while they have the
    same max group *)
Fixpoint gc_fold_rev (rev_rest : list (group_count G)) (mg : G) (size : nat) : nat :=
  match rev_rest with
  | [] => size
  | a :: rest =>
      match gc_max_group a with
      | Some (g, c) => if group_eqb g mg then gc_fold_rev rest mg (size + c) else size
      | None => size
      end
  end.

(** group.rs:287-312 [fold_inner] *)
Definition gc_fold_inner (rank : option (G * nat)) (l : list (group_count G))
  : option (G * nat) :=
  match rev l with
  | [] => None
  | la :: rest =>
      match gc_max_group la with
      | None => None
      | Some (mg, sz) =>
          let sz := gc_fold_rev rest mg sz in
          match rank with
          | Some (g, c) => if group_eqb g mg then Some (g, c + sz) else Some (mg, sz)
          | None => Some (mg, sz)
          end
      end
  end.

(** group.rs:344-351: number of keys of the group among the given ones *)
Fixpoint gc_count_in (ks : list K) (g : G) : nat :=
  match ks with
  | [] => 0
  | k :: ks' => (if group_eqb (from_ref k) g then 1 else 0) + gc_count_in ks' g
  end.

(** group.rs:314-357 [fold_leaf] *)
Definition gc_fold_leaf (key : K) (rank : option (G * nat)) (slot : result nat nat)
    (ks : list K) : result (option (G * nat)) (option (G * nat)) :=
  match ks with
  | [] => RErr (Some (from_ref key, 0))
  | k0 :: _ =>
      let '(g, off) := match rank with Some x => x | None => (from_ref k0, 0) end in
      let gk := from_ref key in
      if group_eqb g gk then
        match slot with
        | ROk idx => ROk (Some (gk, idx + off))
        | RErr idx => RErr (Some (gk, idx + off))
        end
      else
        let slot_idx := match slot with ROk i => i | RErr i => i end in
        let c := gc_count_in (take slot_idx ks) gk in
        match slot with
        | ROk _ => ROk (Some (gk, c))
        | RErr _ => RErr (Some (gk, c))
        end
  end.

(** group.rs:275-358 *)
Definition group_rank : RankOps K V (group_count G) (option (G * nat)) := {|
  initial_value := None;
  fold_inner := fun _ rank l => gc_fold_inner rank l;
  fold_leaf := fun k rank slot ks => gc_fold_leaf k rank slot ks;
|}.

(** group.rs:389-417 [ExtractGroupSize::visit_inner]: the loop.  The state is
    (child_idx, prev_group_count, element_count); [None] is the early [Cancel]. *)
Fixpoint egs_inner_loop (l : list (group_count G)) (idx : nat) (g : G)
    (child_idx prev elems : nat) : option (nat * nat) :=
  match l with
  | [] => Some (child_idx, elems)
  | a :: l' =>
      match gc_max_group a with
      | None => None
      | Some (mg, c) =>
          match kcmp mg g with
          | Lt => egs_inner_loop l' (S idx) g idx prev elems
          | Eq => egs_inner_loop l' (S idx) g idx c (elems + prev)
          | Gt => Some (idx, elems + prev)
          end
      end
  end.

(** group.rs:419-429 [ExtractGroupSize::visit_leaf]: the loop *)
Fixpoint egs_leaf_loop (ks : list K) (g : G) (elems : nat) : nat :=
  match ks with
  | [] => elems
  | k :: ks' =>
      match kcmp (from_ref k) g with
      | Lt => egs_leaf_loop ks' g elems
      | Eq => egs_leaf_loop ks' g (elems + 1)
      | Gt => elems
      end
  end.

(** group.rs:367-430 [ExtractGroupSize]: the state is [element_count].  When the
    visit is cancelled the count is irrelevant. *)
Definition extract_group_size (g : G) : visitor K V (group_count G) nat nat := {|
  visit_inner := fun elems _ l =>
    match egs_inner_loop l 0 g 0 0 elems with
    | None => (elems, Cancel)
    | Some (i, elems) => (elems, GoDown i)
    end;
  visit_leaf := fun elems ks _ => Some (egs_leaf_loop ks g elems);
|}.

End Group.
