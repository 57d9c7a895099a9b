(** The augmentations, searches and visitors written by the programs in
    /repo/examples, and the helper functions they call the tree with.  [usize]
    sums are unbounded here; subtractions that would underflow panic. *)
From stdpp Require Import list.
From Coq Require Import ZArith.
From Verif Require Import Base Slots Store Tree Remove Augment.

(** ** examples/augment_even_count.rs *)
Section EvenCount.
Context {V : Type}.

(** augment_even_count.rs:8-10; [%] truncates *)
Definition value_is_even (v : Z) : bool := Z.eqb (Z.rem v 2) 0.

(** augment_even_count.rs:5-22 *)
Definition even_aug : AugOps Z V nat := {|
  from_leaf := fun ks _ => length (List.filter value_is_even ks);
  from_inner := fun _ aus => list_sum aus;
  aug_default := 0;
  aug_needs_drop := false;
|}.

(** augment_even_count.rs:30-42 [locate_in_leaf]: the loop; [i] is the enumeration index *)
Fixpoint even_locate_leaf (i offset : nat) (ks : list Z) : option nat :=
  match ks with
  | [] => None
  | k :: ks' =>
      if value_is_even k then
        match offset with
        | 0 => Some i
        | S offset' => even_locate_leaf (S i) offset' ks'
        end
      else even_locate_leaf (S i) offset ks'
  end.

(** augment_even_count.rs:44-60 [locate_in_inner]: the loop *)
Fixpoint even_locate_inner (i offset : nat) (aus : list nat) : option (nat * nat) :=
  match aus with
  | [] => None
  | a :: aus' =>
      if decide (offset < a) then Some (i, offset) else even_locate_inner (S i) (offset - a) aus'
  end.

(** augment_even_count.rs:26-61 *)
Definition even_search : SearchOps Z V nat nat := {|
  locate_in_leaf := fun offset ks _ => even_locate_leaf 0 offset ks;
  locate_in_inner := fun offset _ aus => even_locate_inner 0 offset aus;
|}.
End EvenCount.

(** ** examples/duplicate_key.rs: a multiset, the value counts the copies *)
Section Duplicate.
Context {K : Type}.

(** duplicate_key.rs:5-6, 15-23 *)
Definition dup_aug : AugOps K nat nat := {|
  from_leaf := fun _ vs => list_sum vs;
  from_inner := fun _ counts => list_sum counts;
  aug_default := 0;
  aug_needs_drop := false;
|}.

(** duplicate_key.rs:29-41 [locate_in_leaf]: the loop over the values *)
Fixpoint dup_locate_leaf (i accum offset : nat) (vs : list nat) : option nat :=
  match vs with
  | [] => None
  | v :: vs' =>
      if decide (offset < accum + v) then Some i else dup_locate_leaf (S i) (accum + v) offset vs'
  end.

(** duplicate_key.rs:43-54 [locate_in_inner]: the loop *)
Fixpoint dup_locate_inner (i idx : nat) (counts : list nat) : option (nat * nat) :=
  match counts with
  | [] => None
  | a :: counts' =>
      if decide (a <= idx) then dup_locate_inner (S i) (idx - a) counts' else Some (i, idx)
  end.

(** duplicate_key.rs:25-55; [keys.iter().zip(values)]: keys and values have one length *)
Definition dup_search : SearchOps K nat nat nat := {|
  locate_in_leaf := fun offset ks vs => dup_locate_leaf 0 0 offset (take (length ks) vs);
  locate_in_inner := fun idx _ counts => dup_locate_inner 0 idx counts;
|}.

Context {KO : KeyOps K} {PF : Profile}.
Local Existing Instance dup_aug.

(** duplicate_key.rs:57-61 [insert] *)
Definition dup_insert (T : tree K nat nat) (k : K) : outcome (tree K nat nat) :=
  let! '(r, T) := get T (probe_key k) in
  let prev_count := default 0 r in
  let! '(_, T) := insert T k (prev_count + 1) in
  Ok T.

(** duplicate_key.rs:63-70 [delete]; [prev_count - 1] underflows on a missing key *)
Definition dup_delete (T : tree K nat nat) (k : K) : outcome (tree K nat nat) :=
  let! '(r, T) := get T (probe_key k) in
  let prev_count := default 0 r in
  if decide (prev_count = 1) then let! '(_, T) := remove T (probe_key k) in Ok T
  else
    let! c := usize_pred prev_count in
    let! '(_, T) := insert T k c in Ok T.

(** A program making these calls, as duplicate_key.rs:72-97 [main] does. *)
Inductive dup_call := DInsert (k : K) | DDelete (k : K).
Fixpoint dup_run (T : tree K nat nat) (calls : list dup_call) : outcome (tree K nat nat) :=
  match calls with
  | [] => Ok T
  | DInsert k :: calls' => let! T := dup_insert T k in dup_run T calls'
  | DDelete k :: calls' => let! T := dup_delete T k in dup_run T calls'
  end.
End Duplicate.
Arguments dup_call : clear implicits.

(** ** examples/visit_depth.rs *)

(** visit_depth.rs:4-30 [GetTreeDepth]; the state is [depth] *)
Definition depth_visitor {K V A} : visitor K V A nat nat := {|
  visit_inner := fun depth _ _ => (S depth, GoDown 0);
  visit_leaf := fun depth _ _ => Some (S depth);
|}.

(** ** examples/date_statistic.rs *)

(** date_statistic.rs:10-15 [Date], with the derived lexicographic order *)
Record date := mkDate { year : N; month : N; day : N }.
Definition date_cmp (x y : date) : comparison :=
  match N.compare (year x) (year y) with
  | Eq => match N.compare (month x) (month y) with
          | Eq => N.compare (day x) (day y)
          | c => c
          end
  | c => c
  end.
Global Instance date_key : KeyOps date := date_cmp.

(** date_statistic.rs:101-106 [DateCompare] *)
Inductive date_compare := SameDay | SameMonth | SameYear | DifferentYear.
(** date_statistic.rs:17-30 [compare] *)
Definition compare_dates (x y : date) : date_compare :=
  match N.eqb (year x) (year y), N.eqb (month x) (month y), N.eqb (day x) (day y) with
  | true, true, true => SameDay
  | true, true, _ => SameMonth
  | true, _, _ => SameYear
  | _, _, _ => DifferentYear
  end.

(** date_statistic.rs:108-113 [Counter], 115-120 [DateStatisticEntry], 122-127 [DateStatistic] *)
Record counter := mkCounter { c_year : nat; c_month : nat; c_day : nat }.
Record stat_entry := mkEntry { e_date : date; e_counter : counter }.
Record date_stat := mkStat { s_min : stat_entry; s_max : stat_entry }.
Definition stat_default : date_stat :=
  let e := mkEntry (mkDate 0 0 0) (mkCounter 0 0 0) in mkStat e e.

(** date_statistic.rs:142-155 *)
Definition min_inner (m : stat_entry) (a : stat_entry) : stat_entry :=
  let c := e_counter m in
  let d := e_counter a in
  match compare_dates (e_date m) (e_date a) with
  | SameDay => mkEntry (e_date m) (mkCounter (c_year c + c_year d) (c_month c + c_month d) (c_day c + c_day d))
  | SameMonth => mkEntry (e_date m) (mkCounter (c_year c + c_year d) (c_month c + c_month d) (c_day c))
  | SameYear => mkEntry (e_date m) (mkCounter (c_year c + c_year d) (c_month c) (c_day c))
  | DifferentYear => m
  end.
(** date_statistic.rs:157-178 *)
Definition max_inner (m : stat_entry) (a : stat_entry) : stat_entry :=
  let c := e_counter m in
  let d := e_counter a in
  match compare_dates (e_date m) (e_date a) with
  | SameDay => mkEntry (e_date m) (mkCounter (c_year c + c_year d) (c_month c + c_month d) (c_day c + c_day d))
  | SameMonth => mkEntry (e_date a) (mkCounter (c_year c + c_year d) (c_month c + c_month d) (c_day d))
  | SameYear => mkEntry (e_date a) (mkCounter (c_year c + c_year d) (c_month d) (c_day d))
  | DifferentYear => a
  end.
(** date_statistic.rs:199-213 *)
Definition min_leaf (m : stat_entry) (k : date) : stat_entry :=
  let c := e_counter m in
  match compare_dates (e_date m) k with
  | SameDay => mkEntry (e_date m) (mkCounter (c_year c + 1) (c_month c + 1) (c_day c + 1))
  | SameMonth => mkEntry (e_date m) (mkCounter (c_year c + 1) (c_month c + 1) (c_day c))
  | SameYear => mkEntry (e_date m) (mkCounter (c_year c + 1) (c_month c) (c_day c))
  | DifferentYear => m
  end.
(** date_statistic.rs:214-241 *)
Definition max_leaf (m : stat_entry) (k : date) : stat_entry :=
  let c := e_counter m in
  match compare_dates (e_date m) k with
  | SameDay => mkEntry (e_date m) (mkCounter (c_year c + 1) (c_month c + 1) (c_day c + 1))
  | SameMonth => mkEntry k (mkCounter (c_year c + 1) (c_month c + 1) 1)
  | SameYear => mkEntry k (mkCounter (c_year c + 1) 1 1)
  | DifferentYear => mkEntry k (mkCounter 1 1 1)
  end.

Section DateStatistic.
Context {V : Type}.

(** date_statistic.rs:185-245 [from_leaf]; [None] is the panic of [unwrap] on no keys *)
Definition stat_from_leaf (ks : list date) : option date_stat :=
  match ks with
  | [] => None
  | k :: ks' =>
      let e := mkEntry k (mkCounter 1 1 1) in
      Some (mkStat (foldl min_leaf e ks') (foldl max_leaf e ks'))
  end.
(** date_statistic.rs:132-182 [from_inner]; [None] is the panic of [unwrap] on no
    summaries, or of a call that made one of the summaries *)
Definition stat_from_inner (aus : list (option date_stat)) : option date_stat :=
  aus ← mapM id aus;
  match aus with
  | [] => None
  | a :: aus' => Some (mkStat (foldl min_inner (s_min a) (map s_min aus')) (foldl max_inner (s_max a) (map s_max aus')))
  end.
(** date_statistic.rs:122-246.  Augmentation methods are total functions in this
    model, so a summary is an option: [None] says that computing it panics. *)
Definition date_aug : AugOps date V (option date_stat) := {|
  from_leaf := fun ks _ => stat_from_leaf ks;
  from_inner := fun _ aus => stat_from_inner aus;
  aug_default := Some stat_default;
  aug_needs_drop := false;
|}.

(** date_statistic.rs:57-87 [visit_inner]: the loop; [count] is the visitor's
    field, [i] the enumeration index, the answer [None] is a panic ([unreachable!] or
    a summary whose computation panics) *)
Fixpoint year_visit_inner (y : N) (count i : nat) (aus : list (option date_stat)) : nat * visit_result (option nat) :=
  match aus with
  | [] => (count, Complete (Some count))
  | None :: _ => (count, Complete None)
  | Some a :: aus' =>
      match N.compare (year (e_date (s_min a))) y with
      | Lt =>
          match N.compare (year (e_date (s_max a))) y with
          | Lt => year_visit_inner y count (S i) aus'
          | Eq => year_visit_inner y (count + c_year (e_counter (s_max a))) (S i) aus'
          | Gt => (count, GoDown i)
          end
      | Eq =>
          match N.compare (year (e_date (s_max a))) y with
          | Lt => (count, Complete None)
          | Eq => year_visit_inner y (count + c_year (e_counter (s_max a))) (S i) aus'
          | Gt =>
              let count := count + c_year (e_counter (s_min a)) in
              (count, Complete (Some count))
          end
      | Gt => (count, Complete (Some count))
      end
  end.
(** date_statistic.rs:90-98 [visit_leaf]: the loop *)
Fixpoint year_visit_leaf (y : N) (count : nat) (ks : list date) : nat :=
  match ks with
  | [] => count
  | k :: ks' => year_visit_leaf y (if N.eqb (year k) y then count + 1 else count) ks'
  end.
(** date_statistic.rs:32-99 [CountForYear]; the state is [count], it starts at 0 *)
Definition year_visitor (y : N) : visitor date V (option date_stat) nat (option nat) := {|
  visit_inner := fun count _ aus => year_visit_inner y count 0 aus;
  visit_leaf := fun count ks _ => Some (Some (year_visit_leaf y count ks));
|}.
End DateStatistic.

(** date_statistic.rs:293-305 [is_leap_year] *)
Definition is_leap_year (y : N) : bool :=
  if negb (N.eqb (y mod 4) 0) then false
  else if negb (N.eqb (y mod 100) 0) then true
  else N.eqb (y mod 400) 0.
(** date_statistic.rs:307-315 [day_count] *)
Definition day_count (y m : N) : nat :=
  match is_leap_year y, m with
  | true, 2%N => 29
  | false, 2%N => 28
  | _, (1 | 3 | 5 | 7 | 8 | 10 | 12)%N => 31
  | _, _ => 30
  end.
