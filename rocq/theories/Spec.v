(** The specification side: ordered association lists.  Nothing in this file
    mentions nodes, slots or stores; theorems compare the model with these
    functions. *)
From stdpp Require Import list sorting.
From Verif Require Import Base.

(** The laws of Rust's [Ord] (a total order; [Equal] is a congruence). *)
Class OrdLaws (K : Type) {KO : KeyOps K} : Prop := {
  ord_refl : forall x : K, kcmp x x = Eq;
  ord_sym : forall x y : K, kcmp y x = CompOpp (kcmp x y);
  ord_trans : forall x y z : K, kcmp x y = Lt -> kcmp y z = Lt -> kcmp x z = Lt;
  ord_eq : forall x y z : K, kcmp x y = Eq -> kcmp x z = kcmp y z;
}.

(** A lookup argument is consistent with the key order (the contract of
    [Borrow]): smaller keys compare smaller, equal keys compare alike. *)
Record probe_ok {K} {KO : KeyOps K} (p : probe K) : Prop := {
  probe_mono : forall x y, kcmp x y = Lt -> p y <> Gt -> p x = Lt;
  probe_eq : forall x y, kcmp x y = Eq -> p x = p y;
}.

Section Spec.
Context {K V : Type} {KO : KeyOps K} {PF : Profile}.

(** Keys strictly ascending. *)
Definition ascending (l : list (K * V)) : Prop :=
  StronglySorted (fun x y => kcmp (fst x) (fst y) = Lt) l.

(** Value stored under the key matching [p]. *)
Fixpoint spec_get (p : probe K) (l : list (K * V)) : option V :=
  match l with
  | [] => None
  | (k, v) :: l' => match p k with Eq => Some v | _ => spec_get p l' end
  end.

(** Insert, or replace the value of the equal key (the stored key is kept). *)
Fixpoint spec_insert (k : K) (v : V) (l : list (K * V)) : list (K * V) :=
  match l with
  | [] => [(k, v)]
  | (k', v') :: l' =>
      match kcmp k' k with
      | Lt => (k', v') :: spec_insert k v l'
      | Eq => (k', v) :: l'
      | Gt => (k, v) :: (k', v') :: l'
      end
  end.

(** Insert, or replace the whole pair of the equal key. *)
Fixpoint spec_put (kv : K * V) (l : list (K * V)) : list (K * V) :=
  match l with
  | [] => [kv]
  | x :: l' =>
      match kcmp (fst x) (fst kv) with
      | Lt => x :: spec_put kv l'
      | Eq => kv :: l'
      | Gt => kv :: x :: l'
      end
  end.

(** Of the pairs given for one key the last one wins. *)
Definition spec_load (data : list (K * V)) : list (K * V) :=
  foldl (fun l kv => spec_put kv l) [] data.

(** Sorted by key, equal keys allowed: what [bulk_load] asks of its argument. *)
Definition key_sorted (l : list (K * V)) : Prop :=
  StronglySorted (fun x y => kcmp (fst x) (fst y) <> Gt) l.

(** Remove the entry matching [p]. *)
Fixpoint spec_remove (p : probe K) (l : list (K * V)) : list (K * V) :=
  match l with
  | [] => []
  | (k, v) :: l' => match p k with Eq => l' | _ => (k, v) :: spec_remove p l' end
  end.

(** Apply [f] to the value matching [p]. *)
Fixpoint spec_update (p : probe K) (f : V -> V) (l : list (K * V)) : list (K * V) :=
  match l with
  | [] => []
  | (k, v) :: l' => match p k with Eq => (k, f v) :: l' | _ => (k, v) :: spec_update p f l' end
  end.

(** Smallest entry greater than [k], greatest entry smaller than [k]. *)
Fixpoint spec_succ (k : K) (l : list (K * V)) : option (K * V) :=
  match l with
  | [] => None
  | (k', v') :: l' => match kcmp k' k with Gt => Some (k', v') | _ => spec_succ k l' end
  end.
Fixpoint spec_pred (k : K) (l : list (K * V)) : option (K * V) :=
  match l with
  | [] => None
  | (k', v') :: l' =>
      match kcmp k' k with
      | Lt => match spec_pred k l' with Some x => Some x | None => Some (k', v') end
      | _ => None
      end
  end.

(** Number of keys smaller than [k]. *)
Definition spec_rank (k : K) (l : list (K * V)) : nat :=
  length (List.filter (fun kv => match kcmp (fst kv) k with Lt => true | _ => false end) l).

End Spec.

(** [bulk_load] cuts [n] items into leaves of 64 and then, layer by layer, groups
    65 nodes under one parent until one node is left.  [no_orphan m]: starting
    from [m] nodes no layer leaves a single node over for its last parent. *)
Inductive no_orphan : nat -> Prop :=
| no_orphan_one : no_orphan 1
| no_orphan_more m : 2 <= m -> m mod 65 <> 1 -> no_orphan ((m + 64) / 65) -> no_orphan m.
Definition orphan_free (n : nat) : Prop := n = 0 \/ no_orphan ((n + 63) / 64).
