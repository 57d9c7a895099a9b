(** src/tree/cursor.rs and the cursor constructors of mod.rs *)
From stdpp Require Import list.
From Verif Require Import Base Slots BinSearch LeafNode InnerNode Store Tree.

(** cursor.rs:10-19 [Cursor] *)
Record cursor (K : Type) := mkCursor {
  c_key : K;
  c_leaf : nat;
  c_off : nat;
}.
Arguments mkCursor {K}. Arguments c_key {K}. Arguments c_leaf {K}. Arguments c_off {K}.

Section Cursor.
Context {K V A : Type} {KO : KeyOps K} {PF : Profile} {AO : AugOps K V A}.
Notation tree := (tree K V A).
Notation cursor := (cursor K).

(** [kv.0.eq(&self.k)]; [Eq] agrees with [Ord] *)
Definition key_eqb (x y : K) : bool := match kcmp x y with Eq => true | _ => false end.

(** cursor.rs:39-56 [Cursor::first] *)
Definition cursor_first_with_value (t : tree) : outcome (option (cursor * V)) :=
  let! id := first_leaf t in
  let! l := get_leaf (t_store t) id in
  let! '(k, v) := leaf_data_at l 0 in
  Ok (Some (mkCursor k id 0, v)).

(** mod.rs:632-634 [cursor_first] *)
Definition cursor_first (t : tree) : outcome (option cursor) :=
  let! r := cursor_first_with_value t in
  Ok (match r with Some (c, _) => Some c | None => None end).

(** cursor.rs:60-76 [Cursor::last] *)
Definition cursor_last_with_value (t : tree) : outcome (option (cursor * V)) :=
  let! id := last_leaf t in
  let! l := get_leaf (t_store t) id in
  let! i := usize_pred (l_size l) in
  let! '(k, v) := leaf_data_at l i in
  Ok (Some (mkCursor k id i, v)).

(** cursor.rs:210-225 [Cursor::locate_leaf] *)
Definition cursor_locate_leaf (t : tree) (c : cursor) : outcome (nat * leaf K V) :=
  let s := t_store t in
  let! hit :=
    match try_get_leaf s (c_leaf c) with
    | Some l => let! b := leaf_in_range l (probe_key (c_key c)) in
                Ok (if (b : bool) then Some l else None)
    | None => Ok None
    end in
  match hit with
  | Some l => Ok (c_leaf c, l)
  | None =>
      let! id := locate_leaf t (c_key c) in
      let! l := get_leaf s id in
      Ok (id, l)
  end.

(** cursor.rs:96, 151, 200: [Some(kv) if kv.0.eq(&self.k)] on the offset hint *)
Definition cursor_hint_hits (l : leaf K V) (c : cursor) : outcome (option V) :=
  let! r := leaf_try_data_at l (c_off c) in
  Ok (match r with
      | Some (k, v) => if key_eqb k (c_key c) then Some v else None
      | None => None
      end).

(** cursor.rs:86-132 [prev_with_value] *)
Definition cursor_prev_with_value (t : tree) (c : cursor) : outcome (option (cursor * V)) :=
  let! '(leaf_id, l) := cursor_locate_leaf t c in
  let! h := cursor_hint_hits l c in
  let! off :=
    match h with
    | Some _ => Ok (c_off c)
    | None =>
        let! r := leaf_locate_slot l (probe_key (c_key c)) in
        Ok (match r with ROk o => o | RErr o => o end)
    end in
  let! target :=
    if decide (0 < off) then Ok (Some (off - 1, l)) else
    match l_prev l with
    | Some prev_id =>
        let! pl := get_leaf (t_store t) prev_id in
        let! o := usize_pred (l_size pl) in
        Ok (Some (o, pl))
    | None => Ok None
    end in
  match target with
  | None => Ok None
  | Some (o, tl) =>
      let! '(k, v) := leaf_data_at tl o in
      Ok (Some (mkCursor k leaf_id o, v))
  end.

(** cursor.rs:141-185 [next_with_value] *)
Definition cursor_next_with_value (t : tree) (c : cursor) : outcome (option (cursor * V)) :=
  let! '(leaf_id, l) := cursor_locate_leaf t c in
  let! h := cursor_hint_hits l c in
  let! next_off :=
    match h with
    | Some _ => Ok (c_off c + 1)
    | None =>
        let! '(o, v) := leaf_locate_slot_with_value l (probe_key (c_key c)) in
        Ok (match v with Some _ => o + 1 | None => o end)
    end in
  if decide (next_off < l_size l) then
    let! '(k, v) := leaf_data_at l next_off in
    Ok (Some (mkCursor k leaf_id next_off, v))
  else
    match l_next l with
    | None => Ok None
    | Some id =>
        let! nl := get_leaf (t_store t) id in
        let! '(k, v) := leaf_data_at nl 0 in
        Ok (Some (mkCursor k id 0, v))
    end.

(** cursor.rs:80-82, 136-138 [prev], [next] *)
Definition cursor_prev (t : tree) (c : cursor) : outcome (option cursor) :=
  let! r := cursor_prev_with_value t c in
  Ok (match r with Some (c, _) => Some c | None => None end).
Definition cursor_next (t : tree) (c : cursor) : outcome (option cursor) :=
  let! r := cursor_next_with_value t c in
  Ok (match r with Some (c, _) => Some c | None => None end).

(** cursor.rs:193-207 [value] *)
Definition cursor_value (t : tree) (c : cursor) : outcome (option V) :=
  let! '(_, l) := cursor_locate_leaf t c in
  let! h := cursor_hint_hits l c in
  match h with
  | Some v => Ok (Some v)
  | None =>
      let! '(_, v) := leaf_locate_slot_with_value l (probe_key (c_key c)) in
      Ok v
  end.

(** cursor.rs:188-190 [exists] *)
Definition cursor_exists (t : tree) (c : cursor) : outcome bool :=
  let! v := cursor_value t c in
  Ok (match v with Some _ => true | None => false end).

(** mod.rs:637-660 [get_cursor] (always [Some] in Rust) *)
Definition get_cursor (t : tree) (k : K) : outcome (cursor * option V) :=
  let s := t_store t in
  let! id := descend_to_leaf (descend_fuel s) s (t_root t) (probe_key k) in
  let! l := get_leaf s id in
  let! '(idx, v) := leaf_locate_slot_with_value l (probe_key k) in
  Ok (mkCursor k id idx, v).

End Cursor.
