(** Histories over a comparison that need not be an order: what a call may return
    and leave behind, with the entries read as a plain list.  Nothing in this file
    mentions nodes, slots or stores. *)
From stdpp Require Import list.
From Verif Require Import Base Tree Observe Spec AnySpec History.

Section AnyHist.
Context {K V A : Type} {KO : KeyOps K} {PF : Profile} {AO : AugOps K V A}.
Implicit Types (l : list (K * V)) (o : op K V) (r : res K V).

(** One entry per run of neighbours that compare equal: the last. *)
Fixpoint last_of_runs l : list (K * V) :=
  match l with
  | x :: ((y :: _) as l') =>
      match kcmp (fst x) (fst y) with Eq => last_of_runs l' | _ => x :: last_of_runs l' end
  | _ => l
  end.

(** The entries a tree starts with.  [collect] is left out: the standard library's
    sort may do anything, including panic, when the comparison is not an order. *)
Definition start_any (b : start K V) : option (list (K * V)) :=
  match b with
  | SNew => Some []
  | SBulk data => Some (last_of_runs data)
  | SCollect _ => None
  end.

(** One call on entries [l] may return [r] and leave [l']. *)
Definition step_any l o r l' : Prop :=
  match o with
  | OInsert k v => exists x, r = RVal x /\ put_any k v l x l'
  | ORemove p => exists x, r = RVal x /\ del_any p l x l'
  | OGet p => exists x, r = RVal x /\ get_any p l x /\ l' = l
  | OGetMut p f => exists x, r = RVal x /\ upd_any p f l x l'
  | OFirst => r = REntry (head l) /\ l' = l
  | OLast => r = REntry (list.last l) /\ l' = l
  | OLen => r = RNum (length l) /\ l' = l
  | OIsEmpty => exists e, r = RBool e /\ (e = true <-> l = []) /\ l' = l
  | OIter => r = RList l /\ l' = l
  | OIterRev => r = RList (rev l) /\ l' = l
  | OClear => r = RUnit /\ l' = []
  | OClone | OReaders _ => r = RUnit /\ l' = l
  end.

Inductive runs_any : list (K * V) -> list (op K V) -> list (res K V) -> list (K * V) -> Prop :=
| runs_nil l : runs_any l [] [] l
| runs_cons l o r l1 ops rs l2 : step_any l o r l1 -> runs_any l1 ops rs l2 ->
    runs_any l (o :: ops) (r :: rs) l2.

(** How many entries the calls can add at most. *)
Fixpoint inserts (ops : list (op K V)) : nat :=
  match ops with
  | [] => 0
  | OInsert _ _ :: ops' => S (inserts ops')
  | _ :: ops' => inserts ops'
  end.

(** Histories whose length fits a [usize]; removal as in [legal]. *)
Record any_legal (b : start K V) (l0 : list (K * V)) (ops : list (op K V)) : Prop := {
  al_start : start_any b = Some l0;
  al_fits : (N.of_nat (length l0 + inserts ops) < 2 ^ 64)%N;
  al_orphan : Exists is_remove ops -> orphan_free (length l0);
  al_drop : Exists is_remove ops ->
    aug_needs_drop (K:=K) (V:=V) (A:=A) = false \/ length l0 + inserts ops < 272;
}.

(** As [proper]: with removals after loads of any size. *)
Record any_proper (b : start K V) (l0 : list (K * V)) (ops : list (op K V)) : Prop := {
  ap_start : start_any b = Some l0;
  ap_fits : (N.of_nat (length l0 + inserts ops) < 2 ^ 64)%N;
  ap_drop : Exists is_remove ops ->
    aug_needs_drop (K:=K) (V:=V) (A:=A) = false \/ length l0 + inserts ops < 272;
}.

(** [T] is a tree such a history ends with, and [l] are its entries. *)
Definition any_reachable (b : start K V) (T : tree K V A) (l : list (K * V)) : Prop :=
  exists l0 ops rs, any_proper b l0 ops /\ exec b ops = Ok (rs, T) /\ entries T = Ok l.
End AnyHist.
