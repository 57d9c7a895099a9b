(** Counting the comparisons of keys. *)
From stdpp Require Import list.
From Verif Require Import Base Cursor Volatile.

Section CostSpec.
Context {W K V : Type} {PF : Profile}.

(** The same comparison; a number beside the state goes up at each call. *)
Definition counting (c : code W K) : code (W * nat) K := fun '(w, n) x =>
  let '(a, w') := c w x in (a, (w', S n)).
Definition counting2 (c : code2 W K) : code2 (W * nat) K := fun '(w, n) x y =>
  let '(a, w') := c w x y in (a, (w', S n)).

Definition counting_op (o : vop W K V) : vop (W * nat) K V :=
  match o with
  | VInsert c k v => VInsert (counting c) k v
  | VRemove c => VRemove (counting c)
  | VGet c => VGet (counting c)
  | VGetMut c f => VGetMut (counting c) f
  | VNext c x => VNext (counting c) x
  | VPrev c x => VPrev (counting c) x
  | VValue c x => VValue (counting c) x
  | VCursor c k => VCursor (counting c) k
  | VFirst => VFirst
  | VLast => VLast
  | VLen => VLen
  | VIter => VIter
  | VIterRev => VIterRev
  | VClear => VClear
  | VClone => VClone
  end.

(** Comparisons allowed in a tree with [h] inner levels: 7 for each node searched,
    2 for each leaf looked at because of a cache or hint, 1 for an offset hint. *)
Definition call_cost (h : nat) (o : vop W K V) : nat :=
  match o with
  | VInsert _ _ _ | VRemove _ | VCursor _ _ => 7 * (h + 1)
  | VGet _ | VGetMut _ _ => 2 + 7 * (h + 1)
  | VNext _ _ | VPrev _ _ | VValue _ _ => 5 + 7 * (h + 1)
  | _ => 0
  end.
End CostSpec.
