(** Specification vocabulary of the theorems about single calls: what it means
    for a result to be right, in terms of the stored entries only. *)
From stdpp Require Import list.
From Verif Require Import Base Spec.

Section Contents.
Context {K V : Type} {KO : KeyOps K} {PF : Profile}.
Implicit Types (l : list (K * V)) (p : probe K).

(** [o] is the value of the entry whose key matches [p], or [None] if no key does. *)
Definition lookup_is p l (o : option V) : Prop :=
  match o with
  | Some v => exists k, (k, v) ∈ l /\ p k = Eq
  | None => forall k v, (k, v) ∈ l -> p k <> Eq
  end.

(** [l'] is [l] after giving key [k] the value [v]; the key object of an entry
    already there stays. *)
Definition insert_is k v l l' : Prop := forall k' v',
  (k', v') ∈ l' <->
  (kcmp k' k <> Eq /\ (k', v') ∈ l) \/
  (kcmp k' k = Eq /\ v' = v /\
    ((exists w, (k', w) ∈ l) \/ (k' = k /\ forall k'' w, (k'', w) ∈ l -> kcmp k'' k <> Eq))).

(** [l'] is [l] without the entry matching [p]. *)
Definition remove_is p l l' : Prop := forall k' v', (k', v') ∈ l' <-> (k', v') ∈ l /\ p k' <> Eq.

(** [l'] is [l] with [f] applied to the value matching [p]. *)
Definition update_is p (f : V -> V) l l' : Prop := forall k' v',
  (k', v') ∈ l' <-> (p k' <> Eq /\ (k', v') ∈ l) \/ (p k' = Eq /\ exists v, (k', v) ∈ l /\ v' = f v).

(** [o] is the entry with the smallest (largest) key. *)
Definition least_is l (o : option (K * V)) : Prop :=
  match o with
  | Some x => x ∈ l /\ forall y, y ∈ l -> kcmp (fst x) (fst y) <> Gt
  | None => l = []
  end.
Definition greatest_is l (o : option (K * V)) : Prop :=
  match o with
  | Some x => x ∈ l /\ forall y, y ∈ l -> kcmp (fst x) (fst y) <> Lt
  | None => l = []
  end.

(** [o] is the entry following (preceding) key [k]. *)
Definition above_is k l (o : option (K * V)) : Prop :=
  match o with
  | Some x => x ∈ l /\ kcmp (fst x) k = Gt /\ forall y, y ∈ l -> kcmp (fst y) k = Gt -> kcmp (fst x) (fst y) <> Gt
  | None => forall y, y ∈ l -> kcmp (fst y) k <> Gt
  end.
Definition below_is k l (o : option (K * V)) : Prop :=
  match o with
  | Some x => x ∈ l /\ kcmp (fst x) k = Lt /\ forall y, y ∈ l -> kcmp (fst y) k = Lt -> kcmp (fst x) (fst y) <> Lt
  | None => forall y, y ∈ l -> kcmp (fst y) k <> Lt
  end.
End Contents.

(** [x] is the last pair given for its key. *)
Definition last_pair {K V} {KO : KeyOps K} (data : list (K * V)) (x : K * V) : Prop :=
  exists a b, data = a ++ x :: b /\ forall y, y ∈ b -> kcmp (fst y) (fst x) <> Eq.

(** How many of the calls [ends] were at the end [e] ([true]: front). *)
Definition calls (e : bool) (ends : list bool) : nat := length (filter (eq e) ends).
