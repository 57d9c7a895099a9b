(** What the operations of a map may do when nothing is known about the key
    order: they still act on at most one entry, and only on one the comparison
    reports equal.  Nothing in this file mentions nodes, slots or stores. *)
From stdpp Require Import list.
From Verif Require Import Base.

Section AnySpec.
Context {K V : Type} {KO : KeyOps K} {PF : Profile}.
Implicit Types (l : list (K * V)) (o : option V).

(** [insert k v] on [l] returns [o] and leaves [l']: it replaces the value of one
    entry that compares equal, or adds the pair somewhere. *)
Definition put_any (k : K) (v : V) l o l' : Prop :=
  match o with
  | Some v' => exists a k' b, l = a ++ (k', v') :: b /\ kcmp k' k = Eq /\ l' = a ++ (k', v) :: b
  | None => exists a b, l = a ++ b /\ l' = a ++ (k, v) :: b
  end.

(** [remove]: takes out one entry that compares equal, or nothing. *)
Definition del_any (p : probe K) l o l' : Prop :=
  match o with
  | Some v => exists a k b, l = a ++ (k, v) :: b /\ p k = Eq /\ l' = a ++ b
  | None => l' = l
  end.

(** [get]: the value of an entry that compares equal, or nothing. *)
Definition get_any (p : probe K) l o : Prop :=
  match o with
  | Some v => exists k, (k, v) ∈ l /\ p k = Eq
  | None => True
  end.

(** [get_mut] followed by a write through the reference. *)
Definition upd_any (p : probe K) (f : V -> V) l o l' : Prop :=
  match o with
  | Some v => exists a k b, l = a ++ (k, v) :: b /\ p k = Eq /\ l' = a ++ (k, f v) :: b
  | None => l' = l
  end.

End AnySpec.
