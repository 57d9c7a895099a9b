(** Dropping and cloning a tree value by value, when the [Drop] and [Clone] code of
    the keys, values and augmentations may panic. *)
From stdpp Require Import list.
From Verif Require Import Base Slots BinSearch LeafNode InnerNode Store Tree Iterators.

(** Where the code keeps a value: slot [i] of the key or value array of leaf [id]
    (leaf_node.rs:12-20), slot [i] of the key or augmentation array of inner node [id]
    (inner_node.rs:15-23), and the field [root_augmentation] (mod.rs:87-93). *)
Inductive place : Type :=
| LKey (id i : nat)
| LVal (id i : nat)
| IKey (id i : nat)
| IAug (id i : nat)
| Root.
#[global] Instance place_eq_dec : EqDecision place.
Proof. solve_decision. Defined.

(** What the thread is doing: running, unwinding after a panic, or gone: a
    destructor that panics while the thread unwinds aborts the process. *)
Inductive mood : Type := Calm | Unwinding | Aborted.

(** The destructors that have been called so far, in order, and the mood. *)
Record drops : Type := mkDrops { dropped : list place; mood_of : mood }.

Section Drop.
Context {K V A : Type} {PF : Profile}.
Notation tree := (tree K V A).
Notation into_iter := (into_iter K V A).
Notation inner := (inner K A).
(** The destructor of the value at [p] panics. *)
Context (bad : place -> bool).

(** One call of a destructor. *)
Definition drop_at (p : place) (d : drops) : drops :=
  match mood_of d with
  | Aborted => d
  | Calm => mkDrops (dropped d ++ [p]) (if bad p then Unwinding else Calm)
  | Unwinding => mkDrops (dropped d ++ [p]) (if bad p then Aborted else Unwinding)
  end.

(** inner_node.rs:29-35: a loop of [assume_init_drop]; a panic leaves the loop.
    Returns whether that happened. *)
Fixpoint drop_loop {T} (mk : nat -> place) (s : slots T) (i n : nat) (d : drops)
  : outcome (drops * bool) :=
  match n with
  | 0 => Ok (d, false)
  | S n' =>
      let! _ := slot_get s i in
      let d := drop_at (mk i) d in
      if bad (mk i) then Ok (d, true) else drop_loop mk s (S i) n' d
  end.

(** inner_node.rs:25-38 [Drop for InnerNode] *)
Definition inner_drop_p (id : nat) (n : inner) (d : drops) : outcome drops :=
  let! '(d, out) := drop_loop (IKey id) (i_keys n) 0 (i_size n) d in
  if (out : bool) then Ok d else
  let! '(d, _) := drop_loop (IAug id) (i_augs n) 0 (i_size n + 1) d in
  Ok d.

(** Drop glue of [Vec<Option<Box<InnerNode>>>] (vec_backed.rs:5): an element whose
    destructor panics does not keep the others from being dropped. *)
Fixpoint drop_inners_p (id : nat) (l : list (option inner)) (d : drops) : outcome drops :=
  match l with
  | [] => Ok d
  | None :: l' => drop_inners_p (S id) l' d
  | Some n :: l' => let! d := inner_drop_p id n d in drop_inners_p (S id) l' d
  end.

(** iterator.rs:224-229 [Drop for IntoIter]: [while self.next().is_some() {}].  The
    pair is dropped field by field, both fields even if the first panics; a panic
    leaves the loop.  [next] (iterator.rs:152-183) has moved [pos] past the entry. *)
Fixpoint drain_p (fuel : nat) (it : into_iter) (d : drops) : outcome (drops * into_iter) :=
  match fuel with
  | 0 => OutOfFuel
  | S fuel' =>
      let! '(r, it) := into_iter_next it in
      match r with
      | None => Ok (d, it)
      | Some _ =>
          let '(id, off) := ii_pos it in
          let d := drop_at (LVal id (off - 1)) (drop_at (LKey id (off - 1)) d) in
          if bad (LKey id (off - 1)) || bad (LVal id (off - 1)) then Ok (d, it)
          else drain_p fuel' it d
      end
  end.

(** Dropping an [IntoIter]: the loop, then the field [node_store] (iterator.rs:117-124),
    also when the loop was left by a panic.  Leaf nodes drop nothing. *)
Definition into_drop_p (it : into_iter) (d : drops) : outcome drops :=
  let! '(d, it) := drain_p (S (ii_len it)) it d in
  drop_inners_p 0 (inners (ii_store it)) d.

(** mod.rs:818-822 [Drop for BPlusTree], then the fields: [node_store] is
    [ManuallyDrop], so only [root_augmentation] has anything to drop (mod.rs:87-93). *)
Definition tree_drop_p (t : tree) (d : drops) : outcome drops :=
  let! it := into_iter_new t in
  let! d := into_drop_p it d in
  Ok (drop_at Root d).

End Drop.

Section Clone.
Context {K V A : Type} {PF : Profile}.
Notation tree := (tree K V A).
Notation inner := (inner K A).
Notation leaf := (leaf K V).
(** Cloning the value at [p] panics; dropping the clone of the value at [p] panics. *)
Context (cbad dbad : place -> bool).

(** leaf_node.rs:29-46, inner_node.rs:44-61: a loop filling a local array; the
    clones made so far, and whether a panic left the loop. *)
Fixpoint clone_loop {T} (mk : nat -> place) (s : slots T) (i n : nat) (made : list place)
  : outcome (list place * bool) :=
  match n with
  | 0 => Ok (made, false)
  | S n' =>
      let! _ := slot_get s i in
      if cbad (mk i) then Ok (made, true) else clone_loop mk s (S i) n' (made ++ [mk i])
  end.

(** inner_node.rs:40-70 [Clone for InnerNode]; the arrays are [MaybeUninit]: what they
    hold when a panic leaves the function is not dropped *)
Definition inner_clone_p (id : nat) (n : inner) (made : list place) : outcome (list place * bool) :=
  let! '(made, out) := clone_loop (IKey id) (i_keys n) 0 (i_size n) made in
  if (out : bool) then Ok (made, true) else
  clone_loop (IAug id) (i_augs n) 0 (i_size n + 1) made.

(** leaf_node.rs:22-55 [Clone for LeafNode] *)
Definition leaf_clone_p (id : nat) (n : leaf) (made : list place) : outcome (list place * bool) :=
  let! '(made, out) := clone_loop (LKey id) (l_keys n) 0 (l_size n) made in
  if (out : bool) then Ok (made, true) else
  clone_loop (LVal id) (l_vals n) 0 (l_size n) made.

(** [Vec::clone], element by element; [Some id]: the clone of element [id] panicked *)
Fixpoint clone_opts_p {T} (f : nat -> T -> list place -> outcome (list place * bool))
    (id : nat) (l : list (option T)) (made : list place) : outcome (list place * option nat) :=
  match l with
  | [] => Ok (made, None)
  | None :: l' => clone_opts_p f (S id) l' made
  | Some x :: l' =>
      let! '(made, out) := f id x made in
      if (out : bool) then Ok (made, Some id) else clone_opts_p f (S id) l' made
  end.

(** [#[derive(Clone)]] on BPlusTree (mod.rs:86) over vec_backed.rs:11-21:
    [root_augmentation], the inner nodes, the leaves.  On a panic the clones that are
    part of finished objects are dropped: the finished inner nodes (finished leaves
    have no destructor), then [root_augmentation].  Returns the clones made and, if a
    panic left the function, the destructors called. *)
Definition tree_clone_p (t : tree) : outcome (list place * option drops) :=
  let unwinding := mkDrops [] Unwinding in
  if cbad Root then Ok ([], Some unwinding) else
  let! '(made, out) := clone_opts_p inner_clone_p 0 (inners (t_store t)) [Root] in
  match out with
  | Some id =>
      let! d := drop_inners_p dbad 0 (take id (inners (t_store t))) unwinding in
      Ok (made, Some (drop_at dbad Root d))
  | None =>
      let! '(made, out) := clone_opts_p leaf_clone_p 0 (leaves (t_store t)) made in
      match out with
      | Some id =>
          let! d := drop_inners_p dbad 0 (inners (t_store t)) unwinding in
          Ok (made, Some (drop_at dbad Root d))
      | None => Ok (made, None)
      end
  end.

End Clone.
