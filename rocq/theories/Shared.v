(** Threads that read one tree through a shared reference, each running a program
    of its own.  As in [Readers.v], the only shared memory written is the atomic
    word [cached_leaf] (vec_backed.rs:8); a relaxed load may return any value
    stored so far. *)
From stdpp Require Import list.
From Verif Require Import Base Slots BinSearch LeafNode InnerNode Store Tree Iterators Observe Cursor History Spec.

Section Shared.
Context {K V A : Type} {KO : KeyOps K} {PF : Profile} {AO : AugOps K V A}.
Notation tree := (tree K V A).

(** The calls other than [get] that need only a shared reference.  Each loads the
    word at most once ([locate_leaf], mod.rs:583-587) and none stores to it. *)
Inductive rcall :=
| CNext (c : cursor K)      (** cursor.rs:141-185 [next_with_value] *)
| CPrev (c : cursor K)      (** cursor.rs:86-132 [prev_with_value] *)
| CValue (c : cursor K)     (** cursor.rs:193-207 [value] *)
| CCursor (k : K)           (** mod.rs:637-660 [get_cursor] *)
| CCursorFirst              (** mod.rs:632-634, cursor.rs:39-56 *)
| CCursorLast               (** cursor.rs:60-76 *)
| CFirst | CLast            (** mod.rs:375-415 [first], [last] *)
| CLen                      (** mod.rs:141-143 [len] *)
| CIter | CIterRev.         (** mod.rs:626-628 [iter], run to its end *)

Inductive rres :=
| XCursor (r : option (cursor K * V))
| XPlace (c : cursor K) (v : option V)
| XVal (r : option V)
| XEntry (r : option (K * V))
| XNum (n : nat)
| XList (l : list (K * V)).

Definition call (T : tree) (c : rcall) : outcome rres :=
  match c with
  | CNext c => let! r := cursor_next_with_value T c in Ok (XCursor r)
  | CPrev c => let! r := cursor_prev_with_value T c in Ok (XCursor r)
  | CValue c => let! r := cursor_value T c in Ok (XVal r)
  | CCursor k => let! '(c, v) := get_cursor T k in Ok (XPlace c v)
  | CCursorFirst => let! r := cursor_first_with_value T in Ok (XCursor r)
  | CCursorLast => let! r := cursor_last_with_value T in Ok (XCursor r)
  | CFirst => let! r := first T in Ok (XEntry r)
  | CLast => let! r := last T in Ok (XEntry r)
  | CLen => Ok (XNum (t_len T))
  | CIter => let! r := entries T in Ok (XList r)
  | CIterRev => let! r := entries_rev T in Ok (XList r)
  end.

(** A program: what it calls next may depend on the answers so far. *)
Inductive prog (R : Type) :=
| PRet (r : R)
| PGet (p : probe K) (k : option V -> prog R)
| PCall (c : rcall) (k : rres -> prog R).
Arguments PRet {R}. Arguments PGet {R}. Arguments PCall {R}.

(** The program run on its own. *)
Fixpoint run_alone {R} (T : tree) (P : prog R) : outcome R :=
  match P with
  | PRet r => Ok r
  | PGet p k => let! '(r, T) := get T p in run_alone T (k r)
  | PCall c k => let! r := call T c in run_alone T (k r)
  end.

(** Where a thread stands. *)
Inductive thread (R : Type) :=
| ThRun (P : prog R)
| ThMiss (p : probe K) (k : option V -> prog R)            (** in [get], about to descend and store the word *)
| ThLeaf (p : probe K) (id : nat) (k : option V -> prog R) (** in [get], about to read the leaf *)
| ThCrash.                                                 (** panicked or hit undefined behaviour *)
Arguments ThRun {R}. Arguments ThMiss {R}. Arguments ThLeaf {R}. Arguments ThCrash {R}.

Inductive thread_step {R} (T : tree) : list (option nat) -> thread R -> list (option nat) -> thread R -> Prop :=
| th_hit seen p k w id : w ∈ seen -> check_cache (t_store T) w p = Ok (Some id) ->
    thread_step T seen (ThRun (PGet p k)) seen (ThLeaf p id k)
| th_miss seen p k w : w ∈ seen -> check_cache (t_store T) w p = Ok None ->
    thread_step T seen (ThRun (PGet p k)) seen (ThMiss p k)
| th_bad_load seen p k w : w ∈ seen -> (forall r, check_cache (t_store T) w p <> Ok r) ->
    thread_step T seen (ThRun (PGet p k)) seen ThCrash
| th_descend seen p k id : descend_to_leaf (descend_fuel (t_store T)) (t_store T) (t_root T) p = Ok id ->
    thread_step T seen (ThMiss p k) (Some id :: seen) (ThLeaf p id k)
| th_bad_descend seen p k : (forall r, descend_to_leaf (descend_fuel (t_store T)) (t_store T) (t_root T) p <> Ok r) ->
    thread_step T seen (ThMiss p k) seen ThCrash
| th_read seen p k id r : find_in_leaf (t_store T) id p = Ok r ->
    thread_step T seen (ThLeaf p id k) seen (ThRun (k r))
| th_bad_read seen p k id : (forall r, find_in_leaf (t_store T) id p <> Ok r) ->
    thread_step T seen (ThLeaf p id k) seen ThCrash
| th_call seen c k w r : w ∈ seen -> call (with_cache T w) c = Ok r ->
    thread_step T seen (ThRun (PCall c k)) seen (ThRun (k r))
| th_bad_call seen c k w : w ∈ seen -> (forall r, call (with_cache T w) c <> Ok r) ->
    thread_step T seen (ThRun (PCall c k)) seen ThCrash.

(** Any thread takes the next step. *)
Inductive threads_step {R} (T : tree) :
  list (option nat) * list (thread R) -> list (option nat) * list (thread R) -> Prop :=
| ths_step seen seen' i ths th th' : ths !! i = Some th -> thread_step T seen th seen' th' ->
    threads_step T (seen, ths) (seen', <[i := th']> ths).

(** What the programs may call: probes ordered like the keys, and the cursor
    constructors only if the tree has an entry ([cursor_ends_refuted]). *)
Definition call_ok (l : list (K * V)) (c : rcall) : Prop :=
  match c with CCursorFirst | CCursorLast => l <> [] | _ => True end.
Inductive prog_ok {R} (l : list (K * V)) : prog R -> Prop :=
| ok_ret r : prog_ok l (PRet r)
| ok_get p k : probe_ok p -> (forall r, prog_ok l (k r)) -> prog_ok l (PGet p k)
| ok_call c k : call_ok l c -> (forall r, prog_ok l (k r)) -> prog_ok l (PCall c k).
End Shared.
Arguments rcall : clear implicits. Arguments rres : clear implicits.
Arguments prog : clear implicits. Arguments thread : clear implicits.
Arguments PRet {K V R}. Arguments PGet {K V R}. Arguments PCall {K V R}.
Arguments ThRun {K V R}. Arguments ThMiss {K V R}. Arguments ThLeaf {K V R}. Arguments ThCrash {K V R}.
Arguments CNext {K}. Arguments CPrev {K}. Arguments CValue {K}. Arguments CCursor {K}. Arguments CCursorFirst {K}.
Arguments CCursorLast {K}. Arguments CFirst {K}. Arguments CLast {K}. Arguments CLen {K}. Arguments CIter {K}. Arguments CIterRev {K}.
Arguments XCursor {K V}. Arguments XPlace {K V}. Arguments XVal {K V}. Arguments XEntry {K V}. Arguments XNum {K V}. Arguments XList {K V}.
