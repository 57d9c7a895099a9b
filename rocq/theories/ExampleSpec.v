(** What the programs in /repo/examples are for, said about lists of entries. *)
From stdpp Require Import list sorting.
From Coq Require Import ZArith.
From Verif Require Import Base Spec ExamplePrograms.

(** ** augment_even_count.rs: the entries with even keys, in order *)
Definition evens {V} (l : list (Z * V)) : list (Z * V) := List.filter (fun kv => Z.even (fst kv)) l.

(** ** duplicate_key.rs: multisets *)
Section Bag.
Context {K : Type} {KO : KeyOps K} {PF : Profile}.

(** How many keys of [ks] equal [k]. *)
Fixpoint copies (k : K) (ks : list K) : nat :=
  match ks with
  | [] => 0
  | x :: ks' => (match kcmp x k with Eq => 1 | _ => 0 end) + copies k ks'
  end.
Definition inserted (calls : list (dup_call K)) : list K :=
  concat (map (fun c => match c with DInsert k => [k] | DDelete _ => [] end) calls).
Definition deleted (calls : list (dup_call K)) : list K :=
  concat (map (fun c => match c with DInsert _ => [] | DDelete k => [k] end) calls).

(** Every deletion removes a copy that is there at that point. *)
Definition no_missing (calls : list (dup_call K)) : Prop :=
  forall calls1 k calls2, calls = calls1 ++ DDelete k :: calls2 ->
    copies k (deleted calls1) < copies k (inserted calls1).

(** [ks] holds, in ascending order, every inserted key as often as it was inserted
    and not deleted. *)
Definition bag_of (calls : list (dup_call K)) (ks : list K) : Prop :=
  StronglySorted (fun x y => kcmp x y <> Gt) ks /\
  forall k, copies k ks + copies k (deleted calls) = copies k (inserted calls).
End Bag.

(** ** date_statistic.rs *)
Section Dates.
Context {V : Type}.
Notation run := (list (date * V)).

Definition count_if (f : date -> bool) (l : run) : nat := length (List.filter (fun kv => f (fst kv)) l).
Definition in_year (y : N) (d : date) : bool := N.eqb (year d) y.
Definition in_month (y m : N) (d : date) : bool := N.eqb (year d) y && N.eqb (month d) m.
Definition on_day (y m dy : N) (d : date) : bool :=
  N.eqb (year d) y && N.eqb (month d) m && N.eqb (day d) dy.

(** [e] gives a date and how many entries of [l] are of its year, month and day. *)
Definition entry_about (d : date) (e : stat_entry) (l : run) : Prop :=
  e_date e = d /\
  c_year (e_counter e) = count_if (in_year (year d)) l /\
  c_month (e_counter e) = count_if (in_month (year d) (month d)) l /\
  c_day (e_counter e) = count_if (on_day (year d) (month d) (day d)) l.

(** The statistic of a run is about its first and its last date. *)
Definition stat_about (s : date_stat) (l : run) : Prop :=
  exists first last, fst <$> head l = Some first /\ fst <$> list.last l = Some last /\
    entry_about first (s_min s) l /\ entry_about last (s_max s) l.
End Dates.
