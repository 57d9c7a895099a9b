(** C54-C57: the programs in /repo/examples. *)
From stdpp Require Import list.
From Coq Require Import ZArith.
From Verif Require Import Base Slots Store Tree Remove Iterators Observe BulkLoad History Spec Contents Augment AugSpec
  SearchSpec View ViewRead Instances HistTop HistProof ExamplePrograms ExampleSpec ExampleProof DateProof.

(** The examples are computed in the dev profile. *)
Local Existing Instance dev_build.

(** C54 (augment_even_count.rs): the root summary is the number of even keys, and
    looking up [i] gives the entry number [i] among those with even keys. *)
Section Even.
Local Instance ex_even {V} : AugOps Z V nat := even_aug.
Local Instance ex_even_search {V} : SearchOps Z V nat nat := even_search.
Theorem even_count_index {V} {PF : Profile} (b : start Z V) (T : tree Z V nat) l :
  reachable (A:=nat) b T l ->
  t_aug T = length (evens l) /\ forall i, get_by_augmentation T i = Ok (evens l !! i).
Proof. exact (even_top b T l). Qed.
Print Assumptions even_count_index.
Example even_count_index_ex :
  reachable (A:=nat) SNew ex_tree ex_list /\ t_aug (A:=nat) ex_tree = 40 /\
  evens ex_list !! 25 = Some (170, 1700)%Z /\ get_by_augmentation (A:=nat) ex_tree 25 = Ok (Some (170, 1700)%Z) /\
  get_by_augmentation (A:=nat) ex_tree 40 = Ok None.
Proof. split; [by apply ex_reachable|]. split_and!; vm_compute; done. Qed.
End Even.

(** C55 (duplicate_key.rs): the program's [insert] and [delete] make the tree a
    sorted multiset: the root summary is its size and looking up [i] gives its
    element number [i].  Deleting a key that is not there panics in the dev profile
    (in the release profile the count goes around to [usize::MAX]). *)
Section Duplicate.
Local Instance ex_dup {K} : AugOps K nat nat := dup_aug.
Local Instance ex_dup_search {K} : SearchOps K nat nat nat := dup_search.
Theorem duplicate_multiset {K} {KO : KeyOps K} {PF : Profile} {OL : OrdLaws K} (calls : list (dup_call K)) :
  (N.of_nat (length calls) < 2 ^ 64)%N ->
  (no_missing calls -> exists T ks, dup_run tree_new calls = Ok T /\ bag_of calls ks /\ t_aug T = length ks /\
     forall i, exists r, get_by_augmentation T i = Ok r /\ fst <$> r = ks !! i) /\
  (~ no_missing calls -> dev = true -> dup_run tree_new calls = Panic).
Proof. exact (dup_top calls). Qed.
Print Assumptions duplicate_multiset.
(** 70 keys three times each, then every third key deleted once *)
Definition ex_calls : list (dup_call Z) :=
  map DInsert (zseq 0 70 ++ zseq 0 70 ++ zseq 0 70) ++ map (fun k => DDelete (3 * k)%Z) (zseq 0 20).
Fixpoint no_missing_b (past calls : list (dup_call Z)) : bool :=
  match calls with
  | [] => true
  | c :: calls' =>
      (match c with
       | DInsert _ => true
       | DDelete k => Nat.ltb (copies k (deleted past)) (copies k (inserted past))
       end) && no_missing_b (past ++ [c]) calls'
  end.
Lemma no_missing_b_ok past calls : no_missing_b past calls = true ->
  forall calls1 k calls2, calls = calls1 ++ DDelete k :: calls2 ->
    copies k (deleted (past ++ calls1)) < copies k (inserted (past ++ calls1)).
Proof.
  revert past. induction calls as [|c calls IH]; intros past H c1 k c2 E; [by destruct c1|].
  apply andb_prop in H as [H1 H2]. destruct c1 as [|c' c1].
  - injection E as -> ->. rewrite app_nil_r. by apply Nat.ltb_lt.
  - injection E as -> ->. specialize (IH _ H2 c1 k c2 eq_refl). by rewrite <- app_assoc in IH.
Qed.
Example duplicate_multiset_ex :
  (N.of_nat (length ex_calls) < 2 ^ 64)%N /\ no_missing ex_calls /\
  match dup_run tree_new ex_calls with
  | Ok T => t_aug T = 190 /\ t_len T = 70 /\ get_by_augmentation T 2 = Ok (Some (1%Z, 3)) /\ get_by_augmentation T 190 = Ok None
  | _ => False end /\
  ~ no_missing (ex_calls ++ [DDelete 1000%Z]) /\ dup_run tree_new (ex_calls ++ [DDelete 1000%Z]) = Panic.
Proof.
  split; [by vm_compute|]. split; [intros c1 k c2; apply (no_missing_b_ok [] ex_calls); by vm_compute|].
  split; [vm_compute; done|]. split; [|by vm_compute].
  intros H. specialize (H ex_calls 1000%Z [] eq_refl). revert H. vm_compute. intros H. inversion H.
Qed.
End Duplicate.

(** C56 (date_statistic.rs).  Full statement: in every tree the program can build the
    statistic of the root is that of all entries, computing it does not panic, and
    counting the entries of a year by [CountForYear] gives their number.  Proved
    with the statistic of non-empty trees. *)
Section Date.
Local Instance ex_date {V} : AugOps date V (option date_stat) := date_aug.
Theorem date_statistics_partial {V} {PF : Profile} (b : start date V) (T : tree date V (option date_stat)) l :
  reachable b T l ->
  (l <> [] -> exists s, t_aug T = Some s /\ stat_about s l) /\
  forall y, descend_visit T (year_visitor y) 0 = Ok (Some (Some (count_if (in_year y) l))).
Proof. exact (date_top b T l). Qed.
Print Assumptions date_statistics_partial.
(** the days of the first months of two years, then three days removed *)
Definition ex_days (y : N) (ms : list N) : list date :=
  concat (map (fun m => map (fun d => mkDate y m (N.of_nat d)) (seq 0 (day_count y m))) ms).
Definition ex_date_ops : list (op date unit) :=
  map (fun d => OInsert d tt) (ex_days 2011 [1; 2; 3; 4] ++ ex_days 2012 [2; 3])%N ++
  map (fun d => ORemove (probe_key d)) [mkDate 2011 1 3; mkDate 2011 3 3; mkDate 2012 2 28]%N.
Definition ex_date_tree : tree date unit (option date_stat) :=
  match exec SNew ex_date_ops with Ok (_, T) => T | _ => tree_new end.
Definition ex_date_list : list (date * unit) := (spec_exec SNew ex_date_ops).2.
Example date_statistics_partial_ex :
  reachable SNew ex_date_tree ex_date_list /\ length ex_date_list = 177 /\
  (e_date ∘ s_max) <$> t_aug ex_date_tree = Some (mkDate 2012 3 30) /\
  (e_counter ∘ s_max) <$> t_aug ex_date_tree = Some (mkCounter 59 31 1) /\
  count_if (in_year 2011) ex_date_list = 118 /\
  descend_visit ex_date_tree (year_visitor 2011) 0 = Ok (Some (Some 118)).
Proof.
  assert (legal (A:=option date_stat) SNew ex_date_ops) as Hl.
  { split; [done| | | |by apply drops_none].
    - unfold ex_date_ops. apply Forall_app. split; apply Forall_map, Forall_forall; [done|]. intros x _. apply probe_key_legal.
    - apply fits_short. vm_compute. reflexivity.
    - by left. }
  split.
  { destruct (history_ok SNew ex_date_ops Hl) as (T & E & _). unfold ex_date_tree. rewrite E.
    exists ex_date_ops, (spec_exec SNew ex_date_ops).1. split; [by apply legal_proper|]. split; [exact E|reflexivity]. }
  clear. split_and!; vm_compute; reflexivity.
Qed.

(** Removing the last entry computes the statistic of no keys: [from_leaf] unwraps
    the first key and panics. *)
Theorem date_statistics_refuted : exists (T : tree date unit (option date_stat)),
  reachable SNew T [] /\ exec SNew [OInsert (mkDate 2011 1 1) (); ORemove (probe_key (mkDate 2011 1 1))] = Ok ([RVal None; RVal (Some ())], T) /\
  t_aug T = None.
Proof.
  eexists. split; [|split; [vm_compute; reflexivity|vm_compute; reflexivity]].
  exists [OInsert (mkDate 2011 1 1) (); ORemove (probe_key (mkDate 2011 1 1))], [RVal None; RVal (Some ())].
  split; [|split; [by vm_compute|by vm_compute]]. split; [done| | |by apply drops_none].
  - constructor; [done|]. constructor; [apply probe_key_legal|done].
  - apply fits_short. by vm_compute.
Qed.
Print Assumptions date_statistics_refuted.

(** Taking out the last entry always does that, and no other removal does. *)
Theorem date_statistics_exact {V} {PF : Profile} (b : start date V) (T : tree date V (option date_stat)) l p :
  reachable b T l -> probe_ok p -> removal_ok (A:=option date_stat) b l ->
  exists T', remove T p = Ok (spec_get p l, T') /\ reachable b T' (spec_remove p l) /\
    (spec_get p l <> None -> (t_aug T' = None <-> length l = 1)).
Proof. exact (date_panics b T l p). Qed.
Print Assumptions date_statistics_exact.
Example date_statistics_exact_ex :
  exists T, reachable SNew T [(mkDate 2011 1 1, ())] /\ removal_ok (A:=option date_stat) (@SNew date unit) [(mkDate 2011 1 1, ())] /\
    match remove T (probe_key (mkDate 2011 1 1)) with Ok (v, T') => v = Some () /\ t_aug T' = None | _ => False end.
Proof.
  eexists. split; [|split; [by split; left|]].
  - exists [OInsert (mkDate 2011 1 1) ()], [RVal None]. split; [|split; [by vm_compute|by vm_compute]].
    split; [done| | |by apply drops_none]; [by constructor|]. apply fits_short. by vm_compute.
  - by vm_compute.
Qed.
End Date.

(** C57 (visit_depth.rs): [GetTreeDepth] gives the number of levels of the tree, which
    is logarithmic in the number of entries. *)
Theorem tree_depth {K V A} {KO : KeyOps K} {PF : Profile} {OL : OrdLaws K} {AO : AugOps K V A} (b : start K V) (T : tree K V A) l w :
  reachable b T l -> tree_shows T w ->
  exists h, descend_visit T depth_visitor 0 = Ok (Some (S h)) /\ occupied 0 0 h w /\
    (N.of_nat (length l) <= 64 * 65 ^ N.of_nat h)%N /\
    (forall h', h = S h' -> (16 * 17 ^ N.of_nat h' <= N.of_nat (length l))%N).
Proof. exact (depth_top b T l w). Qed.
Print Assumptions tree_depth.
Section Depth.
Local Instance ex_unit : AugOps Z Z unit := unit_aug.
Example tree_depth_ex :
  reachable (A:=unit) SNew ex_tree ex_list /\ tree_shows (A:=unit) ex_tree (tree_view (A:=unit) ex_tree) /\
  descend_visit (A:=unit) ex_tree depth_visitor 0 = Ok (Some 2) /\ length ex_list = 80.
Proof.
  split; [by apply ex_reachable|]. split; [apply tree_view_shows; vm_compute; reflexivity|]. split; vm_compute; done.
Qed.
End Depth.
