(** src/tree/node_stores/vec_backed.rs: [NodeStoreVec] *)
From stdpp Require Import list.
From Verif Require Import Base Slots BinSearch LeafNode InnerNode.

(** vec_backed.rs:4-9.  [cached] is the content of the atomic [cached_leaf];
    [None] stands for its initial value [usize::MAX], which is never a valid
    index. *)
Record store (K V A : Type) := mkStore {
  inners : list (option (inner K A));
  leaves : list (option (leaf K V));
  cached : option nat;
}.
Arguments mkStore {K V A}.
Arguments inners {K V A}. Arguments leaves {K V A}. Arguments cached {K V A}.

Section Store.
Context {K V A : Type} {PF : Profile}.
Notation store := (store K V A).

(** vec_backed.rs:23-31 [Default] *)
Definition store_default : store := mkStore [] [] None.

Definition set_inners (s : store) x : store := mkStore x (leaves s) (cached s).
Definition set_leaves (s : store) x : store := mkStore (inners s) x (cached s).

(** vec_backed.rs:115-120 [new_empty_leaf] *)
Definition new_empty_leaf (s : store) : nat * store :=
  (length (leaves s), set_leaves s (leaves s ++ [Some leaf_new])).

(** vec_backed.rs:122-126 [add_inner] *)
Definition add_inner (s : store) (n : inner K A) : nat * store :=
  (length (inners s), set_inners s (inners s ++ [Some n])).

(** vec_backed.rs:129-157 [get_inner], [get_mut_inner] (and [get_mut_inner_ptr]
    211-222): unchecked *)
Definition get_inner (s : store) (id : nat) : outcome (inner K A) :=
  match inners s !! id with Some (Some n) => Ok n | _ => UB end.

(** Writing back a node obtained by [get_mut_inner]. *)
Definition put_inner (s : store) (id : nat) (n : inner K A) : store :=
  set_inners s (<[id := Some n]> (inners s)).

(** vec_backed.rs:159-161 [take_inner]: checked index and [unwrap] *)
Definition take_inner (s : store) (id : nat) : outcome (inner K A * store) :=
  match inners s !! id with
  | Some (Some n) => Ok (n, set_inners s (<[id := None]> (inners s)))
  | _ => Panic
  end.

(** vec_backed.rs:167-171 [reserve_leaf] *)
Definition reserve_leaf (s : store) : nat * store :=
  (length (leaves s), set_leaves s (leaves s ++ [None])).

(** vec_backed.rs:174-184, 192-200 [get_leaf], [get_mut_leaf]: unchecked *)
Definition get_leaf (s : store) (id : nat) : outcome (leaf K V) :=
  match leaves s !! id with Some (Some n) => Ok n | _ => UB end.

(** Writing back a node obtained by [get_mut_leaf]. *)
Definition put_leaf (s : store) (id : nat) (n : leaf K V) : store :=
  set_leaves s (<[id := Some n]> (leaves s)).

(** vec_backed.rs:186-189 [try_get_leaf]: checked *)
Definition try_get_leaf (s : store) (id : nat) : option (leaf K V) :=
  match leaves s !! id with Some (Some n) => Some n | _ => None end.

(** vec_backed.rs:202-204 [take_leaf] *)
Definition take_leaf (s : store) (id : nat) : outcome (leaf K V * store) :=
  match leaves s !! id with
  | Some (Some n) => Ok (n, set_leaves s (<[id := None]> (leaves s)))
  | _ => Panic
  end.

(** vec_backed.rs:206-208 [assign_leaf]: checked index; a leaf already there ends *)
Definition assign_leaf (s : store) (id : nat) (n : leaf K V) : outcome store :=
  match leaves s !! id with
  | Some old => let! _ := match old with Some m => leaf_drop m | None => Ok tt end in
                Ok (put_leaf s id n)
  | None => Panic
  end.

(** vec_backed.rs:224-227 [cache_leaf] *)
Definition cache_leaf (s : store) (id : nat) : store :=
  mkStore (inners s) (leaves s) (Some id).

(** vec_backed.rs:234-246, the part of [try_cache] after the atomic load
    returned [c] *)
Definition check_cache (s : store) (c : option nat) (p : probe K) : outcome (option nat) :=
  match c with
  | None => Ok None
  | Some id =>
      match try_get_leaf s id with
      | None => Ok None
      | Some l => let! b := leaf_in_range l p in
                  Ok (if (b : bool) then Some id else None)
      end
  end.

(** vec_backed.rs:229-246 [try_cache] *)
Definition try_cache (s : store) (p : probe K) : outcome (option nat) :=
  check_cache s (cached s) p.

(** vec_backed.rs:11-21 [Clone], element by element *)
Fixpoint clone_opts {T} (f : T -> outcome T) (l : list (option T)) : outcome (list (option T)) :=
  match l with
  | [] => Ok []
  | None :: l' => let! r := clone_opts f l' in Ok (None :: r)
  | Some x :: l' => let! y := f x in let! r := clone_opts f l' in Ok (Some y :: r)
  end.
Definition store_clone (s : store) : outcome store :=
  let! is := clone_opts inner_clone (inners s) in
  let! ls := clone_opts leaf_clone (leaves s) in
  Ok (mkStore is ls (cached s)).

End Store.
