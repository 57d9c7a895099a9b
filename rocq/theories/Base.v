(** Base definitions shared by the whole model: outcomes, constants, node ids
    and the parameters of the crate (key order, augmentation). *)
From stdpp Require Import list.

(** Result of running a piece of the modelled Rust code.
    [Panic]: an [assert!]/[unwrap]/[unreachable!] fires or a checked index fails; in
    the dev profile also a [debug_assert!] or a subtraction below 0.  [UB]: undefined behaviour
    (out-of-bounds [get_unchecked], [assume_init] on an uninitialised or
    moved-out slot, [unreachable_unchecked]).  [Leak]: a slot that holds a value
    is overwritten or given up without its value being moved out or dropped (the
    Rust code would go on; the model stops, so that [Ok] excludes it).
    [OutOfFuel]: the model's loop bound was too small (never happens on reachable
    states). *)
Inductive outcome (X : Type) : Type :=
| Ok (x : X)
| Panic
| UB
| Leak
| OutOfFuel.
Arguments Ok {X} x.
Arguments Panic {X}.
Arguments UB {X}.
Arguments Leak {X}.
Arguments OutOfFuel {X}.

Definition obind {X Y} (o : outcome X) (f : X -> outcome Y) : outcome Y :=
  match o with
  | Ok x => f x
  | Panic => Panic
  | UB => UB
  | Leak => Leak
  | OutOfFuel => OutOfFuel
  end.

Notation "'let!' x ':=' e 'in' b" := (obind e (fun x => b))
  (at level 200, x name, e at level 100, b at level 200, right associativity).
Notation "'let!' ' p ':=' e 'in' b" := (obind e (fun x => match x with p => b end))
  (at level 200, p strict pattern, e at level 100, b at level 200, right associativity).

(** How the crate is compiled: [dev = true] with [debug_assertions] and
    [overflow-checks] on (cargo's dev and test profiles), [dev = false] with both
    off (its release profile). *)
Class Profile := dev : bool.
Definition dev_build : Profile := true.
Definition release_build : Profile := false.

(** [debug_assert!(P); e] *)
Notation "'debug_assert' P 'in' e" := (if decide P then e else if dev then Panic else e)
  (at level 200, P at level 100, e at level 200, right associativity).
Notation "'debug_assert_is' b 'in' e" := (if b then e else if dev then Panic else e)
  (at level 200, b at level 100, e at level 200, right associativity).

(** [usize::MAX] on a 64-bit target; sealed, so that nothing unfolds it. *)
Lemma usize_max_exists : { n : nat | N.of_nat n = (2 ^ 64 - 1)%N }.
Proof. exists (N.to_nat (2 ^ 64 - 1)). apply N2Nat.id. Qed.
Definition usize_max : nat := proj1_sig usize_max_exists.

(** [n - 1] on [usize] *)
Definition usize_pred {PF : Profile} (n : nat) : outcome nat :=
  match n with 0 => if dev then Panic else Ok usize_max | S m => Ok m end.

Lemma debug_assert_inv {PF : Profile} {X} (P : Prop) `{!Decision P} (e : outcome X) x :
  (debug_assert P in e) = Ok x -> e = Ok x.
Proof. destruct (decide P); [done|]. by destruct dev. Qed.
Lemma debug_assert_is_inv {PF : Profile} {X} (b : bool) (e : outcome X) x :
  (debug_assert_is b in e) = Ok x -> e = Ok x.
Proof. destruct b; [done|]. by destruct dev. Qed.

(** src/tree/consts.rs:2 *)
Definition INNER_N : nat := 64.
(** src/tree/consts.rs:4 *)
Definition INNER_C : nat := 65.
(** src/tree/consts.rs:6 *)
Definition LEAF_N : nat := 64.
(** src/tree/consts.rs:10 (INNER_N / 4) *)
Definition MIN_N : nat := 16.
(** src/tree/consts.rs:14, [usize::MAX.ilog(16)] on a 64-bit target *)
Definition MAX_DEPTH : nat := 15.

(** src/tree/node_id.rs:1-38.  Ids are indexes into the two store vectors. *)
Inductive node_id : Type :=
| NInner (i : nat)
| NLeaf (i : nat).

(** src/tree/node_id.rs:50-55: [leaf_id_unchecked] *)
Definition leaf_id_unchecked (n : node_id) : outcome nat :=
  match n with NLeaf i => Ok i | NInner _ => UB end.

(** src/tree/node_id.rs:66-71: [inner_id_unchecked] *)
Definition inner_id_unchecked (n : node_id) : outcome nat :=
  match n with NInner i => Ok i | NLeaf _ => UB end.

(** [Ord::cmp] of the key type (src/tree/mod.rs:955, trait [Key: Clone + Ord]).
    [Clone] is modelled as the identity. *)
Class KeyOps (K : Type) := kcmp : K -> K -> comparison.

(** src/augment/mod.rs:10-26, trait [Augmentation].  The trait methods are total
    functions here (an implementation that panics is not modelled).
    [aug_needs_drop] tells whether dropping a value of the type does anything
    ([std::mem::needs_drop]). *)
Class AugOps (K V A : Type) := {
  from_leaf : list K -> list V -> A;
  from_inner : list K -> list A -> A;
  aug_default : A;
  aug_needs_drop : bool;
}.

(** The ordering of a lookup argument [q : &Q] ([K: Borrow<Q>], [Q: Ord])
    relative to the stored keys: [p x] is [x.borrow().cmp(q)].  A lookup in the
    model takes such a function. *)
Definition probe (K : Type) := K -> comparison.

(** The lookup argument [&k] itself. *)
Definition probe_key {K} {KO : KeyOps K} (k : K) : probe K := fun x => kcmp x k.

(** [Result<usize, usize>] as returned by the binary search. *)
Inductive result (X Y : Type) : Type :=
| ROk (x : X)
| RErr (y : Y).
Arguments ROk {X Y} x.
Arguments RErr {X Y} y.
