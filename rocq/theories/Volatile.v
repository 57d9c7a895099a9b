(** The operations again, for keys whose comparison is arbitrary code: it may
    keep state, answer differently each time, disagree with [==] or [<], or
    panic.  The order of the calls of the comparison is that of the Rust code. *)
From stdpp Require Import list.
From Verif Require Import Base Slots BinSearch LeafNode InnerNode Store Tree InsertParts Remove Iterators Observe Cursor
  BulkLoad.

(** The comparison of a stored key with the argument of a call: from the state
    [W] of the program an answer, or [None] if it panics, and a new state. *)
Definition code (W K : Type) : Type := W -> K -> option comparison * W.
(** The comparison of two items (bulk_load.rs:18) *)
Definition code2 (W K : Type) : Type := W -> K -> K -> option comparison * W.

(** Code that calls the comparison: [None] if it unwinds. *)
Definition comp (W X : Type) : Type := W -> outcome (option X * W).

Section Comp.
Context {W X Y : Type}.
Definition cret (x : X) : comp W X := fun w => Ok (Some x, w).
Definition cbind (m : comp W X) (f : X -> comp W Y) : comp W Y := fun w =>
  let! '(r, w) := m w in
  match r with Some x => f x w | None => Ok (None, w) end.
Definition clift (e : outcome X) : comp W X := fun w => let! x := e in Ok (Some x, w).
End Comp.
Notation "'do!' x := e 'in' b" := (cbind e (fun x => b))
  (at level 200, x binder, e at level 99, b at level 200).
Notation "'do!' ' x := e 'in' b" := (cbind e (fun x => b))
  (at level 200, x strict pattern, e at level 99, b at level 200).

Section Volatile.
Context {W K V A : Type} {AO : AugOps K V A} {PF : Profile}.
Notation store := (store K V A).
Notation tree := (tree K V A).
Notation cursor := (cursor K).
Notation code := (code W K).
Notation comp := (comp W).

Definition ask (c : code) (x : K) : comp comparison := fun w => Ok (c w x).

(** ** Searching *)

(** [slice::binary_search_by] as in BinSearch.v *)
Fixpoint bsearch_loop_c (fuel : nat) (c : code) (l : list K) (left right : nat) : comp (result nat nat) :=
  match fuel with
  | 0 => clift OutOfFuel
  | S fuel' =>
      if decide (left < right) then
        let mid := left + Nat.div2 (right - left) in
        match l !! mid with
        | None => clift UB
        | Some x =>
            do! a := ask c x in
            match a with
            | Lt => bsearch_loop_c fuel' c l (S mid) right
            | Gt => bsearch_loop_c fuel' c l left mid
            | Eq => cret (ROk mid)
            end
        end
      else cret (RErr left)
  end.
Definition binary_search_c (c : code) (l : list K) : comp (result nat nat) :=
  bsearch_loop_c (S (length l)) c l 0 (length l).

(** leaf_node.rs:106-123 [in_range] ([k.lt(..)] first, then [k.gt(..)]) *)
Definition leaf_in_range_c (n : leaf K V) (c : code) : comp bool :=
  do! is_lt_start :=
    match l_prev n with
    | Some _ => do! x := clift (slot_get (l_keys n) 0) in
                do! a := ask c x in
                cret (match a with Gt => true | _ => false end)
    | None => cret false
    end in
  if (is_lt_start : bool) then cret false else
  do! is_gt_end :=
    match l_next n with
    | Some _ => do! i := clift (usize_pred (l_size n)) in
                do! x := clift (slot_get (l_keys n) i) in
                do! a := ask c x in
                cret (match a with Lt => true | _ => false end)
    | None => cret false
    end in
  cret (negb is_gt_end).

(** leaf_node.rs:311-317 [locate_slot] *)
Definition leaf_locate_slot_c (n : leaf K V) (c : code) : comp (result nat nat) :=
  do! ks := clift (leaf_keys n) in binary_search_c c ks.

(** leaf_node.rs:320-341 [locate_slot_with_value] *)
Definition leaf_locate_slot_with_value_c (n : leaf K V) (c : code) : comp (nat * option V) :=
  do! r := leaf_locate_slot_c n c in
  match r with
  | ROk idx => do! v := clift (slot_get (l_vals n) idx) in cret (idx, Some v)
  | RErr idx => cret (idx, None)
  end.

(** inner_node.rs:205-222 [locate_child] *)
Definition inner_locate_child_c (n : inner K A) (c : code) : comp (nat * node_id) :=
  do! ks := clift (inner_keys n) in
  do! r := binary_search_c c ks in
  match r with
  | RErr idx => do! x := clift (inner_child_id n idx) in cret (idx, x)
  | ROk idx => do! x := clift (inner_child_id n (idx + 1)) in cret (idx + 1, x)
  end.

(** vec_backed.rs:229-246 [try_cache] *)
Definition try_cache_c (s : store) (c : code) : comp (option nat) :=
  match cached s with
  | None => cret None
  | Some id =>
      match try_get_leaf s id with
      | None => cret None
      | Some l => do! b := leaf_in_range_c l c in
                  cret (if (b : bool) then Some id else None)
      end
  end.

(** The descents: mod.rs:418-433, 444-456, 583-607, 637-655; mod.rs:231-244;
    mod.rs:506-532 *)
Fixpoint descend_to_leaf_c (fuel : nat) (s : store) (node : node_id) (c : code) : comp nat :=
  match node with
  | NLeaf id => cret id
  | NInner id =>
      match fuel with
      | 0 => clift OutOfFuel
      | S fuel' =>
          do! n := clift (get_inner s id) in
          do! '(_, x) := inner_locate_child_c n c in
          descend_to_leaf_c fuel' s x c
      end
  end.
Fixpoint insert_descend_c (fuel : nat) (s : store) (id : nat) (c : code) (stack : visit_stack)
  : comp (visit_stack * nat) :=
  match fuel with
  | 0 => clift OutOfFuel
  | S fuel' =>
      do! n := clift (get_inner s id) in
      do! '(child_idx, child_id) := inner_locate_child_c n c in
      do! stack := clift (stack_push stack id child_idx child_id) in
      match child_id with
      | NInner ci => insert_descend_c fuel' s ci c stack
      | NLeaf leaf_id => cret (stack, leaf_id)
      end
  end.
Fixpoint key_to_ref_loop_c (fuel : nat) (s : store) (node : node_id) (c : code) (stack : visit_stack)
  : comp (option (visit_stack * nat * nat)) :=
  match node with
  | NLeaf id =>
      do! n := clift (get_leaf s id) in
      do! r := leaf_locate_slot_c n c in
      match r with
      | ROk idx => cret (Some (stack, id, idx))
      | RErr _ => cret None
      end
  | NInner id =>
      match fuel with
      | 0 => clift OutOfFuel
      | S fuel' =>
          do! n := clift (get_inner s id) in
          do! '(off, x) := inner_locate_child_c n c in
          do! stack := clift (stack_push stack id off x) in
          key_to_ref_loop_c fuel' s x c stack
      end
  end.

(** ** Calls on a tree
    The result is [None] if the comparison panicked; the tree is what is left
    behind in either case. *)
Definition call (X : Type) : Type := W -> outcome (option X * tree * W).

(** Code that leaves [T] behind if it unwinds *)
Definition leaving {X} (T : tree) (m : comp (X * tree)) : call X := fun w =>
  let! '(r, w) := m w in
  match r with
  | Some (x, T') => Ok (Some x, T', w)
  | None => Ok (None, T, w)
  end.

(** mod.rs:311-341 [insert_leaf] *)
Definition insert_leaf_c (s : store) (id : nat) (c : code) (k : K) (v : V)
  : comp (insert_result K V * store) :=
  do! n := clift (get_leaf s id) in
  do! r := leaf_locate_slot_c n c in
  clift (insert_leaf_at s id n k v r).

(** mod.rs:213-296 [descend_insert], [insert_inner] *)
Definition descend_insert_c (s : store) (node : node_id) (c : code) (k : K) (v : V)
  : comp (insert_result K V * store) :=
  match node with
  | NInner id =>
      do! '(stack, leaf_id) := insert_descend_c (descend_fuel s) s id c [] in
      do! '(r, s) := insert_leaf_c s leaf_id c k v in
      clift (insert_ascend stack s r)
  | NLeaf id => insert_leaf_c s id c k v
  end.

(** mod.rs:156-197 [insert]: the comparisons of [locate_child] and [locate_slot]
    (both take [&self]) come before the first write, so a panic leaves [t] *)
Definition insert_c (t : tree) (c : code) (k : K) (v : V) : call (option V) :=
  leaving t (
    do! '(r, s) := descend_insert_c (t_store t) (t_root t) c k v in
    clift (insert_top t r s)).

(** mod.rs:498-504 [remove], tree_remove.rs:8-16 [remove_impl]: [key_to_ref]
    takes [&self] and does all comparisons *)
Definition remove_c (t : tree) (c : code) : call (option V) :=
  leaving t (
    do! r := key_to_ref_loop_c (descend_fuel (t_store t)) (t_store t) (t_root t) c [] in
    match r with
    | None => cret (None, t)
    | Some (stack, leaf_id, offset) =>
        do! '(kv, t) := clift (remove_by_ref t stack leaf_id offset) in
        cret (Some (snd kv), t)
    end).

(** mod.rs:435-442 [find_in_leaf] *)
Definition find_in_leaf_c (s : store) (id : nat) (c : code) : comp (option V) :=
  do! n := clift (get_leaf s id) in
  do! '(_, r) := leaf_locate_slot_with_value_c n c in
  cret r.

(** mod.rs:344-355 [get]; the leaf is cached before it is searched (484-495) *)
Definition get_c (t : tree) (c : code) : call (option V) := fun w =>
  let s := t_store t in
  let! '(r, w) := try_cache_c s c w in
  match r with
  | None => Ok (None, t, w)
  | Some (Some id) => leaving t (do! r := find_in_leaf_c s id c in cret (r, t)) w
  | Some None =>
      let! '(r, w) := descend_to_leaf_c (descend_fuel s) s (t_root t) c w in
      match r with
      | None => Ok (None, t, w)
      | Some id =>
          let t := with_store t (cache_leaf s id) in
          leaving t (do! r := find_in_leaf_c (t_store t) id c in cret (r, t)) w
      end
  end.

(** mod.rs:458-465 [find_in_leaf_mut], leaf_node.rs:343-365 [locate_slot_mut], and
    the write of [f] of the value through the reference *)
Definition find_in_leaf_mut_c (s : store) (id : nat) (c : code) (f : V -> V) : comp (option V * store) :=
  do! n := clift (get_leaf s id) in
  do! r := leaf_locate_slot_c n c in
  match r with
  | ROk idx => do! '(v, n') := clift (leaf_value_at_mut n idx f) in cret (Some v, put_leaf s id n')
  | RErr _ => cret (None, put_leaf s id n)
  end.

(** mod.rs:357-372 [get_mut] *)
Definition get_mut_c (t : tree) (c : code) (f : V -> V) : call (option V) := fun w =>
  let s := t_store t in
  let! '(r, w) := try_cache_c s c w in
  match r with
  | None => Ok (None, t, w)
  | Some (Some id) =>
      leaving t (do! '(r, s) := find_in_leaf_mut_c s id c f in cret (r, with_store t s)) w
  | Some None =>
      let! '(r, w) := descend_to_leaf_c (descend_fuel s) s (t_root t) c w in
      match r with
      | None => Ok (None, t, w)
      | Some id =>
          let t := with_store t (cache_leaf s id) in
          leaving t (do! '(r, s) := find_in_leaf_mut_c (t_store t) id c f in cret (r, with_store t s)) w
      end
  end.

(** ** Cursors (they change nothing) *)

(** mod.rs:583-607 [locate_leaf] *)
Definition locate_leaf_c (t : tree) (c : code) : comp nat :=
  let s := t_store t in
  do! r := try_cache_c s c in
  match r with
  | Some id => cret id
  | None => descend_to_leaf_c (descend_fuel s) s (t_root t) c
  end.

(** cursor.rs:210-225 [Cursor::locate_leaf] *)
Definition cursor_locate_leaf_c (t : tree) (c : code) (x : cursor) : comp (nat * leaf K V) :=
  let s := t_store t in
  do! hit :=
    match try_get_leaf s (c_leaf x) with
    | Some l => do! b := leaf_in_range_c l c in
                cret (if (b : bool) then Some l else None)
    | None => cret None
    end in
  match hit with
  | Some l => cret (c_leaf x, l)
  | None =>
      do! id := locate_leaf_c t c in
      do! l := clift (get_leaf s id) in
      cret (id, l)
  end.

(** cursor.rs:96, 151, 200: [Some(kv) if kv.0.eq(&self.k)] on the offset hint *)
Definition cursor_hint_hits_c (l : leaf K V) (c : code) (x : cursor) : comp (option V) :=
  do! r := clift (leaf_try_data_at l (c_off x)) in
  match r with
  | Some (k, v) => do! a := ask c k in cret (match a with Eq => Some v | _ => None end)
  | None => cret None
  end.

(** cursor.rs:86-132 [prev_with_value] *)
Definition cursor_prev_c (t : tree) (c : code) (x : cursor) : comp (option (cursor * V)) :=
  do! '(leaf_id, l) := cursor_locate_leaf_c t c x in
  do! h := cursor_hint_hits_c l c x in
  do! off :=
    match h with
    | Some _ => cret (c_off x)
    | None =>
        do! r := leaf_locate_slot_c l c in
        cret (match r with ROk o => o | RErr o => o end)
    end in
  clift (
    let! target :=
      if decide (0 < off) then Ok (Some (off - 1, l)) else
      match l_prev l with
      | Some prev_id =>
          let! pl := get_leaf (t_store t) prev_id in
          let! o := usize_pred (l_size pl) in
          Ok (Some (o, pl))
      | None => Ok None
      end in
    match target with
    | None => Ok None
    | Some (o, tl) =>
        let! '(k, v) := leaf_data_at tl o in
        Ok (Some (mkCursor k leaf_id o, v))
    end).

(** cursor.rs:141-185 [next_with_value] *)
Definition cursor_next_c (t : tree) (c : code) (x : cursor) : comp (option (cursor * V)) :=
  do! '(leaf_id, l) := cursor_locate_leaf_c t c x in
  do! h := cursor_hint_hits_c l c x in
  do! next_off :=
    match h with
    | Some _ => cret (c_off x + 1)
    | None =>
        do! '(o, v) := leaf_locate_slot_with_value_c l c in
        cret (match v with Some _ => o + 1 | None => o end)
    end in
  clift (
    if decide (next_off < l_size l) then
      let! '(k, v) := leaf_data_at l next_off in
      Ok (Some (mkCursor k leaf_id next_off, v))
    else
      match l_next l with
      | None => Ok None
      | Some id =>
          let! nl := get_leaf (t_store t) id in
          let! '(k, v) := leaf_data_at nl 0 in
          Ok (Some (mkCursor k id 0, v))
      end).

(** cursor.rs:193-207 [value] *)
Definition cursor_value_c (t : tree) (c : code) (x : cursor) : comp (option V) :=
  do! '(_, l) := cursor_locate_leaf_c t c x in
  do! h := cursor_hint_hits_c l c x in
  match h with
  | Some v => cret (Some v)
  | None => do! '(_, v) := leaf_locate_slot_with_value_c l c in cret v
  end.

(** mod.rs:637-660 [get_cursor] *)
Definition get_cursor_c (t : tree) (c : code) (k : K) : comp (cursor * option V) :=
  let s := t_store t in
  do! id := descend_to_leaf_c (descend_fuel s) s (t_root t) c in
  do! l := clift (get_leaf s id) in
  do! '(idx, v) := leaf_locate_slot_with_value_c l c in
  cret (mkCursor k id idx, v).

(** ** Bulk loading *)

(** bulk_load.rs:106-136 [DeDupKeepLast]; the adapter is lazy in Rust, but the
    code run between two of its comparisons calls no comparison *)
Fixpoint dedup_keep_last_c (c : code2 W K) (cur : option (K * V)) (l : list (K * V)) : comp (list (K * V)) :=
  match l with
  | [] => cret (match cur with Some x => [x] | None => [] end)
  | x :: l' =>
      match cur with
      | Some y =>
          do! a := (fun w => Ok (c w (fst y) (fst x))) in
          match a with
          | Eq => dedup_keep_last_c c (Some x) l'
          | _ => do! r := dedup_keep_last_c c (Some x) l' in cret (y :: r)
          end
      | None => dedup_keep_last_c c (Some x) l'
      end
  end.

(** bulk_load.rs:8-55 [bulk_load]; if it unwinds there is no tree *)
Definition bulk_load_c (c : code2 W K) (data : list (K * V)) : comp tree :=
  match data with
  | [] => cret tree_new
  | _ =>
      do! items := dedup_keep_last_c c None data in
      clift (
        let! '(s, nodes, count) :=
          bulk_leaves (S (length items)) store_default items None [] 0 in
        let! '(s, root) := build_inner_layer (length nodes) s nodes in
        new_from_parts s root count)
  end.

End Volatile.

(** ** Programs *)
Inductive vop (W K V : Type) :=
| VInsert (c : code W K) (k : K) (v : V)
| VRemove (c : code W K)
| VGet (c : code W K)
| VGetMut (c : code W K) (f : V -> V)
| VNext (c : code W K) (x : cursor K)
| VPrev (c : code W K) (x : cursor K)
| VValue (c : code W K) (x : cursor K)
| VCursor (c : code W K) (k : K)
| VFirst | VLast | VLen | VIter | VIterRev | VClear | VClone.
Arguments VInsert {W K V}. Arguments VRemove {W K V}. Arguments VGet {W K V}. Arguments VGetMut {W K V}.
Arguments VNext {W K V}. Arguments VPrev {W K V}. Arguments VValue {W K V}. Arguments VCursor {W K V}.
Arguments VFirst {W K V}. Arguments VLast {W K V}. Arguments VLen {W K V}. Arguments VIter {W K V}.
Arguments VIterRev {W K V}. Arguments VClear {W K V}. Arguments VClone {W K V}.

Inductive vres (K V : Type) :=
| VrVal (o : option V)
| VrAt (o : option (cursor K * V))
| VrCursor (x : cursor K) (o : option V)
| VrEntry (o : option (K * V))
| VrNum (n : nat)
| VrList (l : list (K * V))
| VrUnit
| VrThrew.
Arguments VrVal {K V}. Arguments VrAt {K V}. Arguments VrCursor {K V}. Arguments VrEntry {K V}.
Arguments VrNum {K V}. Arguments VrList {K V}. Arguments VrUnit {K V}. Arguments VrThrew {K V}.

Section Programs.
Context {W K V A : Type} {AO : AugOps K V A} {PF : Profile}.
Notation tree := (tree K V A).

Definition thrown {X} (f : X -> vres K V) (r : option X) : vres K V :=
  match r with Some x => f x | None => VrThrew end.
Definition read_call {X} (T : tree) (f : X -> vres K V) (m : comp W X) (w : W) : outcome (vres K V * tree * W) :=
  let! '(r, w) := m w in Ok (thrown f r, T, w).
Definition write_call {X} (f : X -> vres K V) (m : call (A:=A) X) (w : W) : outcome (vres K V * tree * W) :=
  let! '(r, T, w) := m w in Ok (thrown f r, T, w).
Definition plain_call {X} (T : tree) (f : X -> vres K V) (m : outcome X) (w : W) : outcome (vres K V * tree * W) :=
  let! x := m in Ok (f x, T, w).

Definition vstep (T : tree) (o : vop W K V) (w : W) : outcome (vres K V * tree * W) :=
  match o with
  | VInsert c k v => write_call VrVal (insert_c T c k v) w
  | VRemove c => write_call VrVal (remove_c T c) w
  | VGet c => write_call VrVal (get_c T c) w
  | VGetMut c f => write_call VrVal (get_mut_c T c f) w
  | VNext c x => read_call T VrAt (cursor_next_c T c x) w
  | VPrev c x => read_call T VrAt (cursor_prev_c T c x) w
  | VValue c x => read_call T VrVal (cursor_value_c T c x) w
  | VCursor c k => read_call T (fun x => VrCursor x.1 x.2) (get_cursor_c T c k) w
  | VFirst => plain_call T VrEntry (first T) w
  | VLast => plain_call T VrEntry (last T) w
  | VLen => Ok (VrNum (t_len T), T, w)
  | VIter => plain_call T VrList (entries T) w
  | VIterRev => plain_call T VrList (entries_rev T) w
  | VClear => let! T := clear T in Ok (VrUnit, T, w)
  | VClone => let! T := tree_clone T in Ok (VrUnit, T, w)
  end.

Fixpoint vrun (T : tree) (ops : list (vop W K V)) (w : W) : outcome (list (vres K V) * tree * W) :=
  match ops with
  | [] => Ok ([], T, w)
  | o :: ops' =>
      let! '(r, T, w) := vstep T o w in
      let! '(rs, T, w) := vrun T ops' w in
      Ok (r :: rs, T, w)
  end.
End Programs.
