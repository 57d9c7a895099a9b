(** C28-C32: the [GroupCount] augmentation and [ExtractGroupSize].  [nd]: dropping
    a group does something. *)
From stdpp Require Import list.
From Coq Require Import ZArith.
From Verif Require Import Base Slots Store Tree Remove Iterators Observe BulkLoad History Spec Contents Augment GroupSpec
  Instances HistTop HistProof GroupProof.

(** The examples are computed in the dev profile. *)
Local Existing Instance dev_build.

Section GroupTheorems.
Context {K V G : Type} {KO : KeyOps K} {PF : Profile} {OL : OrdLaws K} {GO : KeyOps G} {GL : OrdLaws G} {FR : FromRef K G}
  {MG : MonoGroup K G} (nd : bool).
Local Instance aug_is_group : AugOps K V (group_count G) := group_aug nd.
Local Instance search_by_group : SearchOps K V (group_count G) (G * nat) := group_search.
Local Instance rank_by_group : RankOps K V (group_count G) (option (G * nat)) := group_rank.

(** C28: [root_augmentation().group_count()] is the number of groups. *)
Theorem group_count_distinct b (T : tree K V (group_count G)) l :
  reachable b T l -> gc_group_count (t_aug T) = group_number l.
Proof. exact (group_count_ok nd b T l). Qed.

(** C29.  Full statement: [max_group()] is the largest group and its number of
    entries.  Missing: maps with a group between the first and the last that has
    2 to 62 entries; see [max_group_refuted]. *)
Theorem max_group_partial b (T : tree K V (group_count G)) l :
  reachable b T l -> sizes_ok (G:=G) l ->
  match gc_max_group (t_aug T) with
  | None => l = []
  | Some (g, c) =>
      (exists x, x ∈ l /\ kcmp (group_of x) g = Eq) /\ (forall x, x ∈ l -> kcmp (group_of x) g <> Gt) /\
      c = group_size g l
  end.
Proof. exact (max_group_top nd b T l). Qed.

(** C30.  Full statement: the query [(g, i)] finds the [i]-th entry of group [g].
    Missing: as for C29; see [group_get_refuted]. *)
Theorem group_get_partial b (T : tree K V (group_count G)) l g i :
  reachable b T l -> sizes_ok (G:=G) l ->
  get_by_augmentation T (g, i) = Ok (group_members g l !! i).
Proof. exact (group_get_ok nd b T l g i). Qed.

(** [remove_by_augmentation((g, i))] removes that entry. *)
Theorem group_remove_partial b (T : tree K V (group_count G)) l g i :
  reachable b T l -> sizes_ok (G:=G) l -> removal_ok (A:=group_count G) b l ->
  exists T', remove_by_augmentation T (g, i) = Ok (group_members g l !! i, T') /\
    reachable b T' (match group_pos l g i with Some j => delete j l | None => l end).
Proof. exact (group_remove_ok nd b T l g i). Qed.

(** C31.  Full statement: the rank of a key is its group together with the number
    of entries of the group with a smaller key; [Ok] exactly when the key is
    present.  Missing: as for C29, and with 272 entries or more the number may be
    too small; see [group_rank_refuted]. *)
Theorem group_rank_partial b (T : tree K V (group_count G)) l k :
  reachable b T l -> sizes_ok (G:=G) l ->
  exists n, n <= group_rank_of (G:=G) k l /\ (length l < 272 -> n = group_rank_of (G:=G) k l) /\
  rank_by_augmentation T k = Ok (match spec_get (probe_key k) l with
    | Some _ => ROk (Some (from_ref k : G, n)) | None => RErr (Some (from_ref k : G, n)) end).
Proof. exact (group_rank_ok nd b T l k). Qed.

(** C32.  Full statement: [ExtractGroupSize] returns the number of entries of the
    group.  Missing: as for C29; see [group_extract_refuted]. *)
Theorem group_extract_partial b (T : tree K V (group_count G)) l g :
  reachable b T l -> sizes_ok (G:=G) l ->
  descend_visit T (extract_group_size g) 0 = Ok (Some (group_size g l)).
Proof. exact (group_extract_ok nd b T l g). Qed.
End GroupTheorems.
Print Assumptions group_count_distinct.
Print Assumptions max_group_partial.
Print Assumptions group_get_partial.
Print Assumptions group_remove_partial.
Print Assumptions group_rank_partial.
Print Assumptions group_extract_partial.

Section GroupExamples.
Local Instance ex_group : AugOps Z Z (group_count Z) := group_aug false.
Local Instance ex_group_search : SearchOps Z Z (group_count Z) (Z * nat) := group_search.
Local Instance ex_group_rank : RankOps Z Z (group_count Z) (option (Z * nat)) := group_rank.

(** Groups of ten; the middle groups are left with one key each. *)
Definition gr_ops : list (op Z Z) :=
  zinserts (zseq 0 200) ++ zremoves (filter (fun k => (10 <= k < 190)%Z /\ (k mod 10 <> 3)%Z) (zseq 0 200)).
Definition gr_list : list (Z * Z) := (spec_exec SNew gr_ops).2.
Definition gr_tree : tree Z Z (group_count Z) := tree_of SNew gr_ops.
Definition sizes_okb (l : list (Z * Z)) : bool :=
  forallb (fun x =>
    let n := group_size (group_of x : Z) l in
    (n =? 1) || (63 <=? n) || match head l with Some y => in_group (group_of x) y | None => false end ||
    match list.last l with Some y => in_group (group_of x) y | None => false end) l.
Lemma sizes_okb_ok l : sizes_okb l = true -> sizes_ok (G:=Z) l.
Proof.
  unfold sizes_okb. intros H x Hx. rewrite forallb_forall in H. specialize (H x ltac:(by apply elem_of_list_In)).
  simpl in H. rewrite !orb_true_iff in H. destruct H as [[[H|H]|H]|H].
  - left. by apply Nat.eqb_eq.
  - right. left. by apply Nat.leb_le.
  - do 2 right. left. destruct (head l) as [y|]; [|done]. by exists y.
  - do 3 right. destruct (list.last l) as [y|]; [|done]. by exists y.
Qed.
Lemma gr_reachable : reachable SNew gr_tree gr_list.
Proof.
  refine (tree_of_reachable SNew gr_ops gr_list _ eq_refl). unfold gr_ops.
  apply zops_legal; [done|by left|by vm_compute|done].
Qed.
Lemma gr_sizes : sizes_ok (G:=Z) gr_list.
Proof. apply sizes_okb_ok. vm_compute. done. Qed.

Example group_count_distinct_ex : reachable SNew gr_tree gr_list /\ gc_group_count (t_aug gr_tree) = 20.
Proof. split; [apply gr_reachable|vm_compute; done]. Qed.
Example max_group_partial_ex : reachable SNew gr_tree gr_list /\ sizes_ok (G:=Z) gr_list /\
  gc_max_group (t_aug gr_tree) = Some (19%Z, 10).
Proof. split; [apply gr_reachable|]. split; [apply gr_sizes|vm_compute; done]. Qed.
Example group_get_partial_ex : reachable SNew gr_tree gr_list /\ sizes_ok (G:=Z) gr_list /\
  get_by_augmentation gr_tree (19%Z, 4) = Ok (Some (194, 1940)%Z) /\
  get_by_augmentation gr_tree (5%Z, 0) = Ok (Some (53, 530)%Z) /\ get_by_augmentation gr_tree (5%Z, 1) = Ok None.
Proof. split; [apply gr_reachable|]. split; [apply gr_sizes|]. split_and!; vm_compute; reflexivity. Qed.
Example group_remove_partial_ex : reachable SNew gr_tree gr_list /\ sizes_ok (G:=Z) gr_list /\
  removal_ok (A:=group_count Z) SNew gr_list /\
  match remove_by_augmentation gr_tree (5%Z, 0) with
  | Ok (r, T) => r = Some (53, 530)%Z /\ gc_group_count (t_aug T) = 19 | _ => False end.
Proof.
  split; [apply gr_reachable|]. split; [apply gr_sizes|]. split; [split; by left|]. vm_compute. done.
Qed.
Example group_rank_partial_ex : reachable SNew gr_tree gr_list /\ sizes_ok (G:=Z) gr_list /\
  rank_by_augmentation gr_tree 194%Z = Ok (ROk (Some (19%Z, 4))) /\
  rank_by_augmentation gr_tree 58%Z = Ok (RErr (Some (5%Z, 1))).
Proof. split; [apply gr_reachable|]. split; [apply gr_sizes|]. split_and!; vm_compute; reflexivity. Qed.
Example group_extract_partial_ex : reachable SNew gr_tree gr_list /\ sizes_ok (G:=Z) gr_list /\
  descend_visit gr_tree (extract_group_size 19%Z) 0 = Ok (Some 10) /\
  descend_visit gr_tree (extract_group_size 5%Z) 0 = Ok (Some 1).
Proof. split; [apply gr_reachable|]. split; [apply gr_sizes|]. split_and!; vm_compute; reflexivity. Qed.

(** C29 is false: [from_leaf] does not restart the counter of the last group when
    a third group begins. *)
Theorem max_group_refuted : exists ops T l (g : Z) c, legal (A:=group_count Z) SNew ops /\
  exec SNew ops = Ok ((spec_exec SNew ops).1, T) /\ entries T = Ok l /\
  gc_max_group (t_aug T) = Some (g, c) /\ c = 2 /\ group_size g l = 1.
Proof.
  exists (zinserts [10; 20; 21; 30]%Z ++ zremoves []). eexists _, _, _, _.
  split; [apply zops_legal; [done|by left|by vm_compute|done]|].
  split_and!; vm_compute; reflexivity.
Qed.
Print Assumptions max_group_refuted.

(** C30 is false: the query (6, 5) misses the key 65 in a map of the keys 0 to 199. *)
Theorem group_get_refuted : exists T l (g : Z) i kv, bulk_load (A:=group_count Z) (zpairs (zseq 0 200)) = Ok T /\
  entries T = Ok l /\ group_members g l !! i = Some kv /\ get_by_augmentation T (g, i) = Ok None.
Proof.
  eexists _, _, 6%Z, 5, (65, 650)%Z. split_and!; vm_compute; reflexivity.
Qed.
Print Assumptions group_get_refuted.

(** C32 is false: the extracted size is too large *)
Theorem group_extract_refuted : exists T l (g : Z) n, bulk_load (A:=group_count Z) (zpairs (zseq 0 200)) = Ok T /\
  entries T = Ok l /\ descend_visit T (extract_group_size g) 0 = Ok (Some n) /\ group_size g l < n.
Proof.
  eexists _, _, 6%Z, _. split_and!; [vm_compute; reflexivity..|]. apply Nat.ltb_lt. vm_compute. done.
Qed.
Print Assumptions group_extract_refuted.
End GroupExamples.

Section OneGroup.
(** all keys below 100000 are in one group *)
Local Instance one_from : FromRef Z Z := fun k => (k / 100000)%Z.
Local Instance one_group : AugOps Z Z (group_count Z) := group_aug (FR:=one_from) false.
Local Instance one_group_rank : RankOps Z Z (group_count Z) (option (Z * nat)) := group_rank (FR:=one_from).

(** C31 is false: [fold_inner] forgets the rank found above when it goes down
    into the first child.  All 4161 keys are in one group, so the rank of the last
    key should be 4160. *)
Theorem group_rank_refuted : exists T l k (g : Z), bulk_load (A:=group_count Z) (zpairs (zseq 0 4161)) = Ok T /\
  entries T = Ok l /\ sizes_ok (FR:=one_from) (G:=Z) l /\
  (N.of_nat (group_rank_of (FR:=one_from) (G:=Z) k l) = 4160)%N /\
  rank_by_augmentation T k = Ok (ROk (Some (g, 0))).
Proof.
  eexists _, (zpairs (zseq 0 4161)), 4160%Z, 0%Z. split; [vm_compute; reflexivity|]. split; [vm_compute; reflexivity|].
  split; [|split; vm_compute; reflexivity].
  intros x Hx. right. left. apply Nat.leb_le.
  assert (group_of (FR:=one_from) x = 0%Z) as ->; [|vm_compute; reflexivity].
  unfold zpairs, zseq in Hx. apply elem_of_list_fmap in Hx as (k & -> & Hk). apply elem_of_list_fmap in Hk as (i & -> & Hi).
  apply elem_of_list_In, in_seq in Hi. unfold group_of, from_ref, one_from. cbn [fst]. apply Z.div_small. lia.
Qed.
Print Assumptions group_rank_refuted.
End OneGroup.
