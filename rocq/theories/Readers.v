(** Threads calling [get] through a shared reference to one tree.  While the tree
    is shared no node changes; the only shared memory written is the atomic word
    [cached_leaf] (vec_backed.rs:8), with [Relaxed] loads and stores.  A relaxed
    load may return any value stored so far, so the memory is the list of all
    values ever stored. *)
From stdpp Require Import list.
From Verif Require Import Base Slots BinSearch LeafNode InnerNode Store Tree.

Section Readers.
Context {K V A : Type} {KO : KeyOps K} {PF : Profile} {AO : AugOps K V A}.

(** Where one call of [get] (mod.rs:344-355) stands. *)
Inductive reader :=
| RdStart (p : probe K)                            (** about to load the word *)
| RdMiss (p : probe K)                             (** about to descend and store the word *)
| RdLeaf (p : probe K) (id : nat)                  (** about to read the leaf *)
| RdDone (p : probe K) (r : outcome (option V)).   (** returned *)

(** One step of a reader; [seen] are the values stored to the word so far.
    - vec_backed.rs:229-246 [try_cache]: load, then [in_range] on the leaf loaded
    - mod.rs:418-433 [find_descend], 482-495 [find_in_leaf_and_cache_it]: descend, then store
    - mod.rs:435-442 [find_in_leaf] *)
Inductive reader_step (T : tree K V A) : list (option nat) -> reader -> list (option nat) -> reader -> Prop :=
| rd_hit seen p w id : w ∈ seen -> check_cache (t_store T) w p = Ok (Some id) ->
    reader_step T seen (RdStart p) seen (RdLeaf p id)
| rd_miss seen p w : w ∈ seen -> check_cache (t_store T) w p = Ok None ->
    reader_step T seen (RdStart p) seen (RdMiss p)
| rd_descend seen p id : descend_to_leaf (descend_fuel (t_store T)) (t_store T) (t_root T) p = Ok id ->
    reader_step T seen (RdMiss p) (Some id :: seen) (RdLeaf p id)
| rd_read seen p id : reader_step T seen (RdLeaf p id) seen (RdDone p (find_in_leaf (t_store T) id p)).

(** Any reader takes the next step. *)
Inductive readers_step (T : tree K V A) :
  list (option nat) * list reader -> list (option nat) * list reader -> Prop :=
| rds_step seen seen' i rds rd rd' : rds !! i = Some rd -> reader_step T seen rd seen' rd' ->
    readers_step T (seen, rds) (seen', <[i := rd']> rds).

Definition rd_probe (rd : reader) : probe K :=
  match rd with RdStart p | RdMiss p | RdLeaf p _ | RdDone p _ => p end.
End Readers.
Arguments reader : clear implicits.
