# Formal model of sweep-bptree

Everything is in Rocq (Coq 8.16.1) under `rocq/theories`, logical name `Verif`.
The only library used beside Coq's own is std++ (lists, tactics), which is axiom free.
Build: `cd rocq && coq_makefile -f _CoqProject -o Makefile && make -j4`.

## Layout

Model (each definition cites file and lines of the Rust source):

| file | content |
|---|---|
| `Base.v` | `outcome` monad (`Ok`, `Panic`, `UB`, `OutOfFuel`); the build profile, `debug_assert!`; classes for the key order and the augmentation |
| `Slots.v` | arrays of `MaybeUninit`, `slice_utils.rs` |
| `BinSearch.v` | binary search of slices (core library) |
| `LeafNode.v`, `InnerNode.v` | `leaf_node.rs`, `inner_node.rs` |
| `Store.v` | `node_stores/vec_backed.rs` with the cached leaf id |
| `Tree.v` | `mod.rs`, `entry_ref.rs`: insert, get, get_mut, first, last, descents, visit stack |
| `Validate.v` | `mod.rs`: the test-only `validate` |
| `Readers.v` | several threads calling `get` on one tree, one atomic cache access at a time |
| `Shared.v` | threads running programs of read-only calls on one tree |
| `Remove.v` | `tree_remove.rs` |
| `Iterators.v` | `iterator.rs`, drop, clear, clone |
| `Cursor.v` | `cursor.rs` |
| `BulkLoad.v` | `bulk_load.rs`, `from_iter` |
| `Augment.v` | `augment/*.rs`, `visit.rs` and the augmentation queries |
| `ExamplePrograms.v` | the augmentations, searches, visitors and helpers of `examples/*.rs` |
| `MapSet.v` | `map.rs`, `set.rs`, `merge_iter.rs` |
| `Unwind.v` | `insert` and `remove` again, for when a call of the augmentation panics |
| `InsertParts.v` | the part of `insert` after the search, shared with `Volatile.v` |
| `Volatile.v` | the operations again, for keys whose comparison is code with state that may panic |
| `Owned.v` | `Drop` and `Clone` again, destructor by destructor, for `Drop` and `Clone` code that may panic |
| `Observe.v`, `History.v`, `SetHist.v` | what a caller sees: collecting an iterator, running a list of calls |

Specification (no reference to nodes, stores or ids except in `View.v`):

| file | content |
|---|---|
| `Spec.v` | an ordered map as a sorted association list |
| `Contents.v` | least/greatest entry, next larger/smaller entry, last pair given for a key, ... |
| `AugSpec.v` | what it means that an augmentation summarises runs of entries |
| `SearchSpec.v` | search answers that are in range; what a user's search, visitor or rank has to satisfy node by node |
| `FollowSpec.v` | where a search lands in the tree of nodes, whatever it answers |
| `ExampleSpec.v` | what the example programs are for: even entries, multisets, counts of dates |
| `GroupSpec.v` | groups of entries: members, size, number, rank |
| `CostSpec.v` | a comparison with a counter beside it, and how often each call may compare |
| `GroupFault.v` | what `GroupCount` counts for a group although it is not there, and what a rank forgets |
| `View.v` | the tree of nodes a visitor walks, read off the store; occupancy and separation |
| `AnySpec.v`, `AnyHist.v` | what calls may do when the comparison is not an order |
| `GarbageSpec.v` | live inner nodes outside the tree, height of the tree |
| `DropSpec.v` | which histories merge two inner nodes |
| `SharedSpec.v` | what a program of read-only calls may return |
| `VolatileSpec.v` | what calls may do when the comparison is arbitrary code |
| `OwnedSpec.v` | the places where a tree owns a value |
| `ReleaseSpec.v` | when two builds are said to do the same |
| `UnwindSpec.v` | the tree with another word in its leaf cache, the number of leaf merges so far |
| `History.v`, `SetHist.v` (second half) | the same calls on lists; which histories are covered |

Proofs: all other files.  `Prop*.v` hold only the theorems of the claims (proved by `exact`), `Print Assumptions`,
and an `Example` beside each theorem showing that its hypotheses are met by a non-trivial tree.  `Instances.v` and
`ViewRead.v` support the examples.

## Trusted base

* Coq's kernel (and its VM for `vm_compute` in the examples and counterexamples).
* `Print Assumptions` says "Closed under the global context" for every theorem.  No axioms are used.  (`coqchk`
  lists `Coq.ssr.ssrunder.*`: fields of a sealed module that comes with the ssreflect tactics std++ loads;
  no theorem depends on them.)
* That the model is the code: the correspondence is by reading, function by function.
* The statements: `Spec.v`, `SearchSpec.v`, `FollowSpec.v`, `ExampleSpec.v`, `AnySpec.v`, `AnyHist.v`, `Contents.v`, `AugSpec.v`, `GroupSpec.v`, `GroupFault.v`, `View.v`, `GarbageSpec.v`, `DropSpec.v`, `UnwindSpec.v`, `SharedSpec.v`, `VolatileSpec.v`, `CostSpec.v`, `OwnedSpec.v`, `ReleaseSpec.v` and the second halves of `History.v` and
  `SetHist.v`.

## How the code is modelled

* **Slots.** A node's arrays are lists of `option`; `None` is an uninitialised or moved-out slot.  Reading `None`
  (`assume_init`), going out of bounds through `get_unchecked`, `unreachable_unchecked` and reading a freed node are
  `UB`.  `unreachable!`, `assert!`, `unwrap` and checked indexing are `Panic`.  Overwriting a slot that holds a value (`MaybeUninit` never drops it), or giving up a node whose
  slots still hold one, is `Leak`: the code would go on, the model stops.  So "returns `Ok`" is memory safety,
  absence of panics and absence of leaked keys, values and augmentations.
* **Build profile.** The model takes the profile as a parameter (class `Profile`).  In a debug build `debug_assert!` and
  arithmetic underflow panic.  In a release build the assertion is not there and `x - 1` wraps to `usize::MAX`
  (`usize_pred`); `slice_insert` and `slice_remove` (slice_utils.rs) then move memory out of bounds, which is `UB`.  Every
  theorem is for both profiles; only counterexamples (`_refuted`, `bulk_remove_panics`) name one.
* **Moves.** A Rust move leaves the bytes behind; the model overwrites the source slot by `None`, so reading or
  dropping a moved value is `UB`.
* **Loops** that follow node ids carry fuel (a bound computed from the store); running out is `OutOfFuel`, and the
  theorems show it does not happen.
* **Keys** are any type with a total order (`OrdLaws`); equality under the order need not be Leibniz equality.
  C45-C48 drop the order laws: there the comparison is any function (pure: it gives the same answer when asked again).
  C61 makes it code: it takes and returns a state and may panic (`code` in `Volatile.v`).
  A lookup argument of type `&Q` is its comparison function against stored keys (`probe`).
* **Augmentations** are `from_leaf`, `from_inner`, the default and a flag "has drop glue".
* **`&mut V` results** are modelled by the function the caller applies to the value.
* **Stable sort** of `from_iter` is an insertion sort.  A stable sort by key has only one possible result.
* **Shared reads.** `get(&self)` writes the cached leaf id.  `Readers.v` interleaves any number of readers at their
  loads and stores of the cache, in any order.  The cache is one relaxed atomic word; a load returns some earlier
  store to it, and `get_any_cache` covers every value a load could return, so weak memory adds nothing.
  `Shared.v` gives each thread a program whose later calls depend on earlier answers.  A call other than `get` loads
  the word at most once and stores nothing, so it is one step.
* **Trees are values.** A clone is another value of the model; that later calls on one do not change the other is
  then built in.  What is proved is that cloning reads only initialised slots and gives an equal tree.
* **Node sizes** are the constants of the code (64 keys, 65 children, minimum 16, stack of 15).

Not modelled: allocation failure; overflow of `usize` other than the bound of 2^64 entries in the theorems (node ids
are `usize`; the model does not bound the number of nodes ever created); `Clone` or `Drop`
code that has side effects on the tree, or panics elsewhere than in dropping or cloning a whole tree (C62-C64); `Ord` code that panics, has side effects or disagrees with `Eq` outside C61 (so in `union`, `from_iter`'s sort and the augmentation queries);
augmentation code with side effects (a panicking one only in `insert` and `remove`, C58 and C59); the raw memory layout; `Debug` and `Statistic` printing; benches,
`examples/stress.rs`, `examples/string.rs` and the test modules.

## Limits that appear in the theorems

* `orphan_free n`: bulk loading `n` keys leaves no inner node with a single child.  Removing below such a node panics
  (`bulk_remove_panics`) or is undefined (`bulk_remove_always_stops`).  Up to 4160 keys never do; trees built by insertion never do.
* `drop_ok l`: the augmentation has no drop glue, or fewer than 272 entries are stored.  With drop glue, merging
  two inner nodes drops moved values (`augmentation_double_drop_refuted`); with fewer than 272 entries there are never two
  inner levels.
* `sizes_ok l`: every group other than the first and the last has 1 or at least 63 entries.  Outside it `GroupCount`
  counts wrong (`max_group_refuted`).
* `summary_ok R` / `key_aug`: the user's augmentation is compositional; with writes through `get_mut` it looks
  at the keys only.

## Proof method

A logical tree (`tr`, `Logical.v`) is related to the store by a representation invariant (`InvAt`): inner nodes, their
summaries, the doubly linked leaf list, uniqueness of ids, occupancy and key order (one in-order list of separators and
entries is sorted).  Node operations are first reduced to list equations on canonical nodes (`NodeLemmas.v`).  Every
operation is shown to preserve the invariant and to act on the entry list as the specification says (`InsertProof.v`,
`RemoveProof.v`, ...).  `HistProof.v` and `HistTop.v` lift this to histories: a tree is `reachable` if some
proper history gives it.  Proper histories are legal ones, but with removals after bulk loads of any size: such a removal
may stop (C21), and if it does not, its tree is reachable like any other (`exec_ret`).  The `*Top.v` files restate each operation for reachable trees.

The invariant and the lemmas on insert, remove and lookup are stated once for both readings of the comparison: the class
`OrdMode` (`Order.v`) carries a proposition `ORD`, facts about key order are conditional on it, and the order laws are
available under it.  With `ORD := True` this gives the refinement theorems, with `ORD := False` the theorems about arbitrary
comparisons (`AnyProof.v`).

## Properties

`MANIFEST.json` gives status and theorem names.  Where the full statement is false of the code there is a `_refuted`
theorem with a computed witness and a `_partial` theorem with the strongest version proved.

| id | modelled in | how proved |
|---|---|---|
| C01, C18 | Tree, Remove, Iterators, BulkLoad, History | invariant preserved by each call, induction over the history; `Ok` excludes panic, UB and lack of fuel |
| C02, C03, C12, C42 | Tree, Remove | refinement of the call, then facts about sorted lists (`ContentsProof.v`) |
| C04, C10 | Tree | length is part of the invariant; leftmost/rightmost descent |
| C05, C06, C07, C08 | Iterators | the iterator state stands for a suffix (prefix) of the leaf list; mixed use refuted after the ends meet |
| C09, C36 | Iterators | the state of `IntoIter` stands for the remaining middle slice; dropping drains it |
| C11 | Tree, Readers | the cached leaf is used only if its key range proves it right, for any id; invariant of the interleaving |
| C13-C17 | Cursor | home-leaf lemma for arbitrary hints; the empty case of C16 refuted |
| C19, C20, C21 | BulkLoad | induction over layers of the loader; left-over single child refuted; Orphan: for every size with a left-over child removing the greatest keys ends in a panic, or in a release build in undefined behaviour when the lowest left-over child is an inner node; OrphanReach: the removal proof without a minimum for inner nodes ([ri = 0], RemoveProof), every history is right up to the removal that stops |
| C22-C26 | Augment | summaries in sync as part of the invariant (`SYNC`); search follows the entry list |
| C27, C33 | Augment, View | tree induction from `summary_ok`; path induction |
| C28-C32 | Augment | a summary invariant for `GroupCount` (`summ`), composition of runs; counterexamples computed |
| C34, C35 | Iterators | a new tree; node-by-node copy |
| C37 | Remove, InnerNode, DropSpec | fewer than 272 entries exclude merging of inner nodes; counterexample computed; exact: the run with and without drop glue agree until the first merge of inner nodes, which is UB with drop glue (DropExact) |
| C38, C39, C44 | View | shape part of the invariant, counting argument |
| C40, C41 | MapSet, SetHist | the set is the map with unit values; merge of two sorted lists; removals after any load through `reachable_remove` (OrphanReach) |
| C43 | Store, View | leaves: the store's live leaves are those of the tree; inner nodes refuted, with the exact account: which live nodes are outside the tree, and how each call changes their number (Garbage, GarbageGrow) |
| C45-C48 | Tree, Remove, Iterators, BulkLoad, Cursor, Readers | the same invariant without its order part (`OrdMode`); binary search on an arbitrary list stays in bounds and only reports hits that compared equal; loads of any size: `OrphanAny.v` |
| C49 | Augment, Remove | the search descends along in-range answers to a leaf of the tree (`ref_by_aug_any`), then as C23, C25, C26; the counterexamples by computation; without a condition on the answers the same induction on the tree gives the landing, and a removal at an empty slot is followed through every branch of `tree_remove.rs` (`FollowProof.v`); removals after any load through `found_remove_gen` (OrphanReach) |
| C50 | Iterators, Observe | the two positions of `Iter` as two independent walks over the entries (`two_walks`), read off call by call |
| C51-C53 | Augment | every node of the tree shows its keys and right summaries (`fair_node`); induction along the path |
| C54 | ExamplePrograms | searches by running weight (`at_weight`) meet the rules of C51; the weight of an entry is 1 if the key is even |
| C55 | ExamplePrograms | the calls as a history of the tree; the weight of an entry is its value; `no_missing` decides Ok or panic call by call (in a release build the count of a missing key wraps) |
| C56 | ExamplePrograms | years, months and days are convex groups of dates (`grouping`), so counts of first and last groups compose; rules of C52; the counterexample by computation; that the root of every empty tree is an empty leaf (`EdgeProof.v`) for the exact form |
| C57 | ExamplePrograms, View | induction over the leftmost path |
| C58 | Unwind: every call of `from_leaf`/`from_inner` may be the one that panics | the interrupted ascent is the finished ascent of a prefix of the stack, so the tree is the old inner nodes over the new leaves |
| C59 | Unwind | a weaker invariant (children listed are live, keys initialised, leaves hold old entries) that rotations and merges of inner nodes keep half way through (`UnwindSafe.v`, `UnwindExact.v`); for the merge of leaves, the inner nodes are the old ones and the lost leaf's keys still descend to it |
| C60 | Shared | every call gives the same answer whatever the cache holds; each thread keeps "the rest of my program returns r"; a thread's steps are well founded, so are those of finitely many |
| C61 | Volatile | each function of the model again with a comparison that threads a state; a small Hoare logic (`does`): never fails, returns a `Q`, or unwinds and the comparison can panic; every leaf a search may end in is a leaf of the tree, and `insert_core`/`remove_by_ref_ok` hold for any of them (`VolatileProof.v`); equality with the other model by structural induction (`VolatileLink.v`); loads of any size: `OrphanVolatile.v` |
| C62 | Owned: a trace of destructor calls; a loop of user code is left at a panic, drop glue is not; a second panic aborts | the calls are a fixed list (entries through the first that panics, each inner node through its first, the root), cut at an abort; that list is a part of the places the tree owns, which has no repetition |
| C63 | Owned | as C62 for any state `next`/`next_back` can reach; the root augmentation is forgotten: refuted |
| C64 | Owned: a trace of clones made, then of destructors called in unwinding | as C62 |
| C65 | Augment, View | the proofs of C29-C32 again with the number counted leaf by leaf (`counted`) instead of the size of the group (`GroupFaultProof.v`) |
| C66 | Volatile, BinSearch, View | the same call with and without a counter run side by side (`tracks` in `CostProof.v`): at most 7 comparisons per search of at most 64 keys by induction on the width, added up along the descent; the height from C38 |
| C67 | Base: the profile; every function that uses it | `same_unless_panic` is kept by sequencing, so one lemma per function (`ReleaseProof.v`); with C01 for legal histories |
| C68 | BulkLoad, Remove | the instance 270465 of `bulk_remove_always_stops`, by arithmetic on the size; arithmetic for the smaller sizes |
| C69 | Validate | induction over the loop; no leaf occurs twice in a list that ends, so the fuel suffices; the `linked` part of the invariant |

## Defects of the code found

1. `Iter::next_back` has no crossing check and does not decrement the length (C07, C08).
2. `cursor_first`, `Cursor::first` on an empty tree read an uninitialised key; `Cursor::last` panics on `0 - 1`, in a
   release build it reads outside the array (C16).
3. `bulk_load`/`collect` of 4161 keys, and of every number of keys for which some layer leaves a single node over,
   gives a tree where removing the greatest keys panics (C21).  When the number of leaves is not one more than a
   multiple of 65, the node left over stands above an inner node, and only the `debug_assert!` of `merge_inner_node`
   (tree_remove.rs:314) stops the removal: a release build reads an uninitialised child id, undefined behaviour from
   safe code.  The smallest such size is 270465 keys (64 in each of 65 * 65 leaves, then 65 more).
4. `GroupCount::from_leaf` does not restart the last group's counter (C29, C30, C32): in each leaf the last group is counted with one
   entry too many for every repetition inside the groups between the first and the last (C65).
5. `GroupCount::fold_inner` forgets the rank when going into the first child (C31).
6. `merge_inner_node` drops moved augmentations: double drop with drop glue, at every such merge (C37).
7. The old root stays in the store after the tree shrinks (C43); a map of at most 70 entries that grows and shrinks
   collects any number of them (`inner_garbage_unbounded`).
8. `get_ref_by_augmentation` trusts the answers of the safe trait `SearchAugmentation`: an out-of-range answer is
   an unchecked read (C49).
9. Removing the last entry calls `Augmentation::from_leaf` with empty slices (tree_remove.rs:86), which nothing in the
   trait's documentation says; `DateStatistic` of `examples/date_statistic.rs` panics there (C56), before `len` is
   decremented.
10. `delete` of `examples/duplicate_key.rs` panics on a missing key in debug builds, and stores the count
   `usize::MAX` in release builds (C55).
11. The tree is not unwind safe.  A panic of the user's augmentation inside `merge_leaf_node_left` or
   `merge_leaf_node_with_right` leaves the parent listing a leaf that is no longer in the store, and looking up
   any key of that leaf is undefined behaviour (C59: exactly in this case).  With item 9, removing the last entry of a tree with
   `DateStatistic` and catching the panic makes a later `first()` read an uninitialised slot.  A panic in the middle of an
   insert that splits a leaf makes half of the leaf unfindable (C58).
12. `into_iter` leaks the root augmentation: `into_parts` (mod.rs:200-207) moves the node store out of a
    `ManuallyDrop` and leaves the rest.  Dropping a tree is not affected: `Drop` reads the tree out and the
    compiler then drops the fields of the original (`into_iter_owned_refuted`).  A `Clone` that panics leaks the
    clones of all entries made so far (`clone_with_panics_ex`), which is safe.
