(** What a caller observes of a tree: the results of its public iterator.
    Theorems speak about these observations, not about nodes. *)
From stdpp Require Import list.
From Verif Require Import Base Slots LeafNode InnerNode Store Tree Iterators.

Section Observe.
Context {K V A : Type} {KO : KeyOps K} {PF : Profile} {AO : AugOps K V A}.
Notation tree := (tree K V A).

(** Call [next] until it returns [None], at most [fuel] times. *)
Fixpoint iter_collect (fuel : nat) (T : tree) (it : iter) : outcome (list (K * V)) :=
  match fuel with
  | 0 => OutOfFuel
  | S fuel' =>
      let! '(r, it) := iter_next T it in
      match r with
      | None => Ok []
      | Some kv => let! l := iter_collect fuel' T it in Ok (kv :: l)
      end
  end.

(** [tree.iter().collect()] *)
Definition entries (T : tree) : outcome (list (K * V)) :=
  let! it := iter_new T in iter_collect (S (t_len T)) T it.

(** Call [next_back] until it returns [None]. *)
Fixpoint iter_rcollect (fuel : nat) (T : tree) (it : iter) : outcome (list (K * V)) :=
  match fuel with
  | 0 => OutOfFuel
  | S fuel' =>
      let! '(r, it) := iter_next_back T it in
      match r with
      | None => Ok []
      | Some kv => let! l := iter_rcollect fuel' T it in Ok (kv :: l)
      end
  end.

(** [tree.iter().rev().collect()] *)
Definition entries_rev (T : tree) : outcome (list (K * V)) :=
  let! it := iter_new T in iter_rcollect (S (t_len T)) T it.

(** Any sequence of calls: [true] is [next], [false] is [next_back].  After
    every call the pair (result, [size_hint]) is recorded. *)
Fixpoint iter_drive (T : tree) (it : iter) (ends : list bool)
  : outcome (list (option (K * V) * nat)) :=
  match ends with
  | [] => Ok []
  | e :: ends' =>
      let! '(r, it) := if e then iter_next T it else iter_next_back T it in
      let! l := iter_drive T it ends' in
      Ok ((r, iter_size_hint it) :: l)
  end.

(** The same for the consuming iterator; the state is returned too. *)
Fixpoint into_drive (it : into_iter K V A) (ends : list bool)
  : outcome (list (option (K * V) * nat) * into_iter K V A) :=
  match ends with
  | [] => Ok ([], it)
  | e :: ends' =>
      let! '(r, it) := if e then into_iter_next it else into_iter_next_back it in
      let! '(l, it') := into_drive it ends' in
      Ok ((r, ii_len it) :: l, it')
  end.
End Observe.

(** The double-ended iterator over a list: [true] takes the first element,
    [false] the last; each result is paired with the number of elements left. *)
Fixpoint deque_drive {X} (l : list X) (ends : list bool) : list (option X * nat) * list X :=
  match ends with
  | [] => ([], l)
  | e :: ends' =>
      let r := if e then head l else list.last l in
      let l' := if e then tail l else removelast l in
      let '(rs, l'') := deque_drive l' ends' in
      ((r, length l') :: rs, l'')
  end.
