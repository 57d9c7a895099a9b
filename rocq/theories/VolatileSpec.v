(** What calls on a map may do when the comparison of keys is arbitrary code.
    Nothing in this file mentions nodes, slots or stores. *)
From stdpp Require Import list.
From Verif Require Import Base Tree Cursor Observe Spec Volatile.

Section VolatileSpec.
Context {W K V A : Type} {AO : AugOps K V A} {PF : Profile}.
Implicit Types (c : code W K) (l : list (K * V)) (r : vres K V).

(** The comparison calls [k] equal at least once; it panics at least once. *)
Definition says_eq c (k : K) : Prop := exists w w', c w k = (Some Eq, w').
Definition panics c : Prop := exists w k w', c w k = (None, w').

(** The value of an entry called equal, or nothing. *)
Definition val_of c l (o : option V) : Prop :=
  match o with Some v => exists k, (k, v) ∈ l /\ says_eq c k | None => True end.
(** One entry called equal gets the value [f v] of its value [v], or nothing happens. *)
Definition one_written c (f : V -> V) l (o : option V) l' : Prop :=
  match o with
  | Some v => exists a k b, l = a ++ (k, v) :: b /\ says_eq c k /\ l' = a ++ (k, f v) :: b
  | None => l' = l
  end.
(** One entry called equal is taken out, or nothing happens. *)
Definition one_removed c l (o : option V) l' : Prop :=
  match o with
  | Some v => exists a k b, l = a ++ (k, v) :: b /\ says_eq c k /\ l' = a ++ b
  | None => l' = l
  end.
(** One entry called equal gets the value [v], or [(k, v)] is put in somewhere. *)
Definition one_inserted c (k : K) (v : V) l (o : option V) l' : Prop :=
  match o with
  | Some _ => one_written c (fun _ => v) l o l'
  | None => exists a b, l = a ++ b /\ l' = a ++ (k, v) :: b
  end.
(** A cursor that was moved is on an entry. *)
Definition on_entry l (o : option (cursor K * V)) : Prop :=
  match o with Some (x, v) => (c_key x, v) ∈ l | None => True end.

(** The call returns as [R] says, or the comparison panics and the entries stay. *)
Definition or_threw c l r l' (R : Prop) : Prop := R \/ r = VrThrew /\ panics c /\ l' = l.

Definition vstep_any l (o : vop W K V) r l' : Prop :=
  match o with
  | VInsert c k v => or_threw c l r l' (exists x, r = VrVal x /\ one_inserted c k v l x l')
  | VRemove c => or_threw c l r l' (exists x, r = VrVal x /\ one_removed c l x l')
  | VGet c => or_threw c l r l' (exists x, r = VrVal x /\ val_of c l x /\ l' = l)
  | VGetMut c f => or_threw c l r l' (exists x, r = VrVal x /\ one_written c f l x l')
  | VNext c _ | VPrev c _ => or_threw c l r l' (exists x, r = VrAt x /\ on_entry l x /\ l' = l)
  | VValue c _ => or_threw c l r l' (exists x, r = VrVal x /\ val_of c l x /\ l' = l)
  | VCursor c k => or_threw c l r l' (exists x v, r = VrCursor x v /\ c_key x = k /\ val_of c l v /\ l' = l)
  | VFirst => r = VrEntry (head l) /\ l' = l
  | VLast => r = VrEntry (list.last l) /\ l' = l
  | VLen => r = VrNum (length l) /\ l' = l
  | VIter => r = VrList l /\ l' = l
  | VIterRev => r = VrList (rev l) /\ l' = l
  | VClear => r = VrUnit /\ l' = []
  | VClone => r = VrUnit /\ l' = l
  end.

Inductive vruns : list (K * V) -> list (vop W K V) -> list (vres K V) -> list (K * V) -> Prop :=
| vruns_nil l : vruns l [] [] l
| vruns_cons l o r l1 ops rs l2 : vstep_any l o r l1 -> vruns l1 ops rs l2 ->
    vruns l (o :: ops) (r :: rs) l2.

Fixpoint vinserts (ops : list (vop W K V)) : nat :=
  match ops with
  | [] => 0
  | VInsert _ _ _ :: ops' => S (vinserts ops')
  | _ :: ops' => vinserts ops'
  end.
Definition is_vremove (o : vop W K V) : Prop := match o with VRemove _ => True | _ => False end.

(** Calls on a tree of [n] entries whose number fits a [usize]; removal as in
    [legal]: no left-over node, and no drop glue or fewer than 272 entries. *)
Record vlegal (n : nat) (ops : list (vop W K V)) : Prop := {
  vl_fits : (N.of_nat (n + vinserts ops) < 2 ^ 64)%N;
  vl_orphan : Exists is_vremove ops -> orphan_free n;
  vl_drop : Exists is_vremove ops ->
    aug_needs_drop (K:=K) (V:=V) (A:=A) = false \/ n + vinserts ops < 272;
}.

(** Data with some items left out, but not the last. *)
Definition thinned (data l : list (K * V)) : Prop := sublist l data /\ list.last l = list.last data.
(** A comparison that only compares. *)
Definition pure (p : probe K) : code W K := fun w x => (Some (p x), w).
Definition pure2 (f : K -> K -> comparison) : code2 W K := fun w x y => (Some (f x y), w).
Definition panics2 (c : code2 W K) : Prop := exists w x y w', c w x y = (None, w').
End VolatileSpec.
