(** C65: what [GroupCount] and [ExtractGroupSize] report, on every tree and for
    every distribution of groups.  The claims C29-C32 say what they should report. *)
From stdpp Require Import list.
From Coq Require Import ZArith.
From Verif Require Import Base Slots Store Tree Remove Iterators Observe BulkLoad History Spec Contents Augment GroupSpec
  View ViewRead GroupFault Instances HistTop HistProof GroupFaultProof PropGroup.

(** The examples are computed in the dev profile. *)
Local Existing Instance dev_build.

Section GroupExactTheorems.
Context {K V G : Type} {KO : KeyOps K} {PF : Profile} {OL : OrdLaws K} {GO : KeyOps G} {GL : OrdLaws G} {FR : FromRef K G}
  {MG : MonoGroup K G} (nd : bool).
Local Instance aug_is_group' : AugOps K V (group_count G) := group_aug nd.
Local Instance search_by_group' : SearchOps K V (group_count G) (G * nat) := group_search.
Local Instance rank_by_group' : RankOps K V (group_count G) (option (G * nat)) := group_rank.

(** [max_group()]: the largest group, and its entries together with the ghosts. *)
Theorem max_group_exact b (T : tree K V (group_count G)) l w :
  reachable b T l -> tree_shows T w ->
  match gc_max_group (t_aug T) with
  | None => l = []
  | Some (g, c) =>
      (exists x, x ∈ l /\ kcmp (group_of x) g = Eq) /\ (forall x, x ∈ l -> kcmp (group_of x) g <> Gt) /\
      c = length (counted g (view_leaves w))
  end.
Proof. exact (max_group_exact_ok nd b T l w). Qed.

(** The query [(g, i)]: what is counted for [g] at [i]. *)
Theorem group_get_exact b (T : tree K V (group_count G)) l w g i :
  reachable b T l -> tree_shows T w ->
  get_by_augmentation T (g, i) = Ok (mjoin (counted g (view_leaves w) !! i)).
Proof. exact (group_get_exact_ok nd b T l w g i). Qed.

Theorem group_remove_exact b (T : tree K V (group_count G)) l w g i :
  reachable b T l -> removal_ok (A:=group_count G) b l -> tree_shows T w ->
  exists T', remove_by_augmentation T (g, i) = Ok (mjoin (counted g (view_leaves w) !! i), T') /\
    match mjoin (counted g (view_leaves w) !! i) with
    | Some kv => exists j, l !! j = Some kv /\ reachable b T' (delete j l)
    | None => T' = T
    end.
Proof. exact (group_remove_exact_ok nd b T l w g i). Qed.

(** The rank of [k]: what is counted for its group in the leaves still remembered,
    and the smaller entries of the group in the leaf of [k]. *)
Theorem group_rank_exact b (T : tree K V (group_count G)) l w k :
  reachable b T l -> tree_shows T w ->
  let ls := fst (remembered k w) in
  let n := length (counted (from_ref k : G) (earlier ls)) + group_rank_of (G:=G) k (final ls) in
  rank_by_augmentation T k = Ok (match spec_get (probe_key k) l with
    | Some _ => ROk (Some (from_ref k : G, n)) | None => RErr (Some (from_ref k : G, n)) end).
Proof. exact (group_rank_exact_ok nd b T l w k). Qed.

(** [ExtractGroupSize]: the ghosts of the last leaf do not count. *)
Theorem group_extract_exact b (T : tree K V (group_count G)) l w g :
  reachable b T l -> tree_shows T w ->
  descend_visit T (extract_group_size g) 0 =
  Ok (Some (length (counted g (earlier (view_leaves w))) + group_size g (final (view_leaves w)))).
Proof. exact (group_extract_exact_ok nd b T l w g). Qed.

(** The entries of every group are counted right exactly if every leaf has one
    entry only of each of its groups other than the first and the last. *)
Theorem group_counts_right b (T : tree K V (group_count G)) l w :
  reachable b T l -> tree_shows T w ->
  (forall g, counted g (view_leaves w) = map Some (group_members g l)) <->
  (forall leaf, leaf ∈ view_leaves w -> single_inside (G:=G) leaf).
Proof. exact (counts_right_ok nd b T l w). Qed.
End GroupExactTheorems.
Print Assumptions max_group_exact.
Print Assumptions group_get_exact.
Print Assumptions group_remove_exact.
Print Assumptions group_rank_exact.
Print Assumptions group_extract_exact.
Print Assumptions group_counts_right.

Section GroupExactExamples.
Local Instance ex_exact : AugOps Z Z (group_count Z) := group_aug false.
Local Instance ex_exact_search : SearchOps Z Z (group_count Z) (Z * nat) := group_search.
Local Instance ex_exact_rank : RankOps Z Z (group_count Z) (option (Z * nat)) := group_rank.

(** The keys 0 to 199 in groups of ten. *)
Definition ten_ops : list (op Z Z) := zinserts (zseq 0 200) ++ zremoves [].
Definition ten_list : list (Z * Z) := (spec_exec SNew ten_ops).2.
Definition ten_tree : tree Z Z (group_count Z) := tree_of SNew ten_ops.
Definition ten_view : view Z Z := tree_view ten_tree.
Lemma ten_reachable : reachable SNew ten_tree ten_list.
Proof.
  refine (tree_of_reachable SNew ten_ops ten_list _ eq_refl). unfold ten_ops.
  apply zops_legal; [done|by left|by vm_compute|done].
Qed.
Lemma ten_shows : tree_shows ten_tree ten_view.
Proof. apply tree_view_shows. vm_compute. done. Qed.

Example max_group_exact_ex : reachable SNew ten_tree ten_list /\ tree_shows ten_tree ten_view /\
  gc_max_group (t_aug ten_tree) = Some (19%Z, 28) /\ group_size 19%Z ten_list = 10 /\
  length (counted 19%Z (view_leaves ten_view)) = 28.
Proof. split; [apply ten_reachable|]. split; [apply ten_shows|]. split_and!; vm_compute; reflexivity. Qed.
(** The last entry of group 6 is found at 27: the ghosts of the leaf before it are
    in between. *)
Example group_get_exact_ex : reachable SNew ten_tree ten_list /\ tree_shows ten_tree ten_view /\
  get_by_augmentation ten_tree (6%Z, 3) = Ok (Some (63, 630)%Z) /\ get_by_augmentation ten_tree (6%Z, 4) = Ok None /\
  get_by_augmentation ten_tree (6%Z, 27) = Ok (Some (69, 690)%Z) /\ get_by_augmentation ten_tree (6%Z, 28) = Ok None.
Proof. split; [apply ten_reachable|]. split; [apply ten_shows|]. split_and!; vm_compute; reflexivity. Qed.
Example group_remove_exact_ex : reachable SNew ten_tree ten_list /\ removal_ok (A:=group_count Z) SNew ten_list /\
  tree_shows ten_tree ten_view /\
  match remove_by_augmentation ten_tree (6%Z, 27) with
  | Ok (r, T) => r = Some (69, 690)%Z /\ get_by_augmentation T (6%Z, 27) = Ok None | _ => False end.
Proof. split; [apply ten_reachable|]. split; [split; by left|]. split; [apply ten_shows|]. vm_compute. done. Qed.
(** 5 would be right: 18 of the 22 are ghosts.  [group_rank_refuted] has a tree where
    leaves are forgotten. *)
Example group_rank_exact_ex : reachable SNew ten_tree ten_list /\ tree_shows ten_tree ten_view /\
  rank_by_augmentation ten_tree 65%Z = Ok (ROk (Some (6%Z, 23))) /\
  length (counted 6%Z (earlier (fst (remembered 65%Z ten_view)))) = 22 /\
  group_rank_of (G:=Z) 65%Z (final (fst (remembered 65%Z ten_view))) = 1.
Proof. split; [apply ten_reachable|]. split; [apply ten_shows|]. split_and!; vm_compute; reflexivity. Qed.
Example group_extract_exact_ex : reachable SNew ten_tree ten_list /\ tree_shows ten_tree ten_view /\
  descend_visit ten_tree (extract_group_size 6%Z) 0 = Ok (Some 28) /\
  descend_visit ten_tree (extract_group_size 19%Z) 0 = Ok (Some 10).
Proof. split; [apply ten_reachable|]. split; [apply ten_shows|]. split_and!; vm_compute; reflexivity. Qed.

(** The keys 0 to 199 in groups of ten are miscounted; with one key left in the
    groups between the first and the last they are counted right. *)
Definition single_insideb (leaf : list (Z * Z)) : bool :=
  forallb (fun x =>
    (group_size (group_of x : Z) leaf =? 1) ||
    match head leaf with Some y => in_group (group_of x) y | None => false end ||
    match list.last leaf with Some y => in_group (group_of x) y | None => false end) leaf.
Lemma single_insideb_ok leaf : single_insideb leaf = true -> single_inside (G:=Z) leaf.
Proof.
  unfold single_insideb. intros H x Hx. rewrite forallb_forall in H. specialize (H x ltac:(by apply elem_of_list_In)).
  simpl in H. rewrite !orb_true_iff in H. destruct H as [[H|H]|H].
  - left. by apply Nat.eqb_eq.
  - right. left. destruct (head leaf) as [y|]; [|done]. by exists y.
  - right. right. destruct (list.last leaf) as [y|]; [|done]. by exists y.
Qed.
Example group_counts_right_ex :
  (reachable SNew ten_tree ten_list /\ tree_shows ten_tree ten_view /\
    ~ (forall g : Z, counted g (view_leaves ten_view) = map Some (group_members g ten_list))) /\
  (reachable SNew gr_tree gr_list /\ tree_shows gr_tree (tree_view gr_tree) /\
    forall leaf, leaf ∈ view_leaves (tree_view gr_tree) -> single_inside (G:=Z) leaf).
Proof.
  split; [split; [apply ten_reachable|]; split; [apply ten_shows|]|split; [apply gr_reachable|]; split; [apply tree_view_shows; vm_compute; done|]].
  - intros H. specialize (H 6%Z). apply (f_equal length) in H. revert H. vm_compute. done.
  - intros leaf Hin. apply single_insideb_ok.
    assert (forallb single_insideb (view_leaves (tree_view gr_tree)) = true) as H by (vm_compute; reflexivity).
    revert H Hin. generalize (view_leaves (tree_view gr_tree)) as ls. intros ls H Hin.
    rewrite forallb_forall in H. by apply H, elem_of_list_In.
Qed.
End GroupExactExamples.
