(** C58, C59: updates interrupted by a panic of the user's augmentation. *)
From stdpp Require Import list relations.
From Coq Require Import ZArith.
From Verif Require Import Base Slots Store Tree Readers Remove Iterators Observe BulkLoad History Spec Contents AnySpec AnyHist
  Augment Instances HistTop MapTop Unwind UnwindSpec UnwindTop.

(** The examples are computed in the dev profile. *)
Local Existing Instance dev_build.

Local Instance ex_aug : AugOps Z Z nat := count_aug.

(** C58 *)
Theorem interrupted_insert {K V A} {KO : KeyOps K} {PF : Profile} {OL : OrdLaws K} {AO : AugOps K V A}
    (b : start K V) (T : tree K V A) l n k v :
  reachable b T l -> (N.of_nat (S (length l)) < 2 ^ 64)%N ->
  (exists r T' m, u_insert n T k v = Ok (Fin (r, T') m) /\ insert T k v = Ok (r, T')) \/
  (exists T' l' a lost c, u_insert n T k v = Ok (Unw T') /\ t_len T' = length l /\
    insert_is k v l l' /\ l' = a ++ lost ++ c /\ ((exists v', lookup_is (probe_key k) l (Some v')) -> lost = []) /\
    forall p w, probe_ok p -> exists o w', get (recached T' w) p = Ok (o, recached T' w') /\
      (lookup_is p (a ++ c) o \/ w <> None /\ lookup_is p l' o)).
Proof. exact (insert_unwind_ok b T l n k v). Qed.
Print Assumptions interrupted_insert.

(** 64 entries in one leaf; the next insert splits it, and the first call of the
    augmentation panics: 33 of the 65 entries cannot be found. *)
Definition full_ops : list (op Z Z) := zinserts (zseq 0 64) ++ zremoves [].
Definition full_tree : tree Z Z nat := tree_of (AO:=ex_aug) SNew full_ops.
Definition full_list : list (Z * Z) := zpairs (zseq 0 64).
Lemma full_reachable : reachable (AO:=ex_aug) SNew full_tree full_list.
Proof.
  unfold full_tree. apply (tree_of_reachable (PF:=dev_build) (AO:=ex_aug) SNew full_ops full_list); [|vm_compute; reflexivity].
  apply zops_legal; [done|by left|by vm_compute|done].
Qed.
Definition finds (T : tree Z Z nat) (k : Z) : bool :=
  match get T (probe_key k) with Ok (Some _, _) => true | _ => false end.
Example interrupted_insert_ex :
  reachable (AO:=ex_aug) SNew full_tree full_list /\ (N.of_nat (S (length full_list)) < 2 ^ 64)%N /\
  match u_insert 0 full_tree 64%Z 7%Z, u_insert 3 full_tree 64%Z 7%Z with
  | Ok (Unw T'), Ok (Fin (None, T2) 0) =>
      t_len T' = 64 /\ t_len T2 = 65 /\
      length (List.filter (finds (recached T' None)) (zseq 0 65)) = 32
  | _, _ => False
  end.
Proof. split; [exact full_reachable|]. split; [vm_compute; reflexivity|]. vm_compute. split_and!; reflexivity. Qed.

(** C59.  That every interrupted removal leaves a tree that can be searched is
    false ([interrupted_remove_refuted]).  Exactly: the tree can be searched, and
    shows only entries it had, unless the call that panicked is the one in the
    merge of two leaves (always the first call of a removal); then every key of
    the leaf that was taken out leads to undefined behaviour. *)
Theorem interrupted_remove {K V A} {KO : KeyOps K} {PF : Profile} {OL : OrdLaws K} {AO : AugOps K V A}
    (b : start K V) (T : tree K V A) l n p :
  reachable b T l -> removal_ok (A:=A) b l -> probe_ok p ->
  (exists r T' m, u_remove n T p = Ok (Fin (r, T') m) /\ remove T p = Ok (r, T')) \/
  (exists T', u_remove n T p = Ok (Unw T') /\
    (0 < n \/ leaf_merges T' = leaf_merges T ->
     forall q w, exists o w', get (recached T' w) q = Ok (o, recached T' w') /\ get_any q l o) /\
    (n = 0 -> leaf_merges T' <> leaf_merges T ->
     exists a lost c, l = a ++ lost ++ c /\ lost <> [] /\
       forall k v, (k, v) ∈ lost -> get (recached T' None) (probe_key k) = UB)).
Proof. exact (remove_unwind_ok b T l n p). Qed.
Print Assumptions interrupted_remove.

(** The first half for a comparison that need not be an order. *)
Theorem interrupted_remove_any {K V A} {KO : KeyOps K} {PF : Profile} {AO : AugOps K V A}
    (b : start K V) l0 ops rs (T T' : tree K V A) l n p :
  any_legal (A:=A) b l0 (ops ++ [ORemove p]) -> exec b ops = Ok (rs, T) -> entries T = Ok l ->
  u_remove n T p = Ok (Unw T') -> 0 < n \/ leaf_merges T' = leaf_merges T ->
  forall q w, exists o w', get (recached T' w) q = Ok (o, recached T' w') /\ get_any q l o.
Proof. exact (remove_unwind_any b l0 ops rs T T' l n p). Qed.
Print Assumptions interrupted_remove_any.

(** Two leaves, the left one at its minimum: removing key 5 moves key 32 over,
    and the panic comes between the two halves of the move: 5 is still there,
    32 is gone. *)
Definition two_ops : list (op Z Z) := zinserts (zseq 0 65) ++ zremoves (zseq 16 16).
Definition two_tree : tree Z Z nat := tree_of (AO:=ex_aug) SNew two_ops.
Definition two_list : list (Z * Z) := zpairs (zseq 0 16 ++ zseq 32 33).
Lemma two_legal : legal (AO:=ex_aug) SNew two_ops.
Proof. apply zops_legal; [done|by left|by vm_compute|done]. Qed.
Lemma two_reachable : reachable (AO:=ex_aug) SNew two_tree two_list.
Proof. apply (tree_of_reachable (PF:=dev_build) (AO:=ex_aug) SNew two_ops two_list two_legal). vm_compute. reflexivity. Qed.
Example interrupted_remove_ex :
  reachable (AO:=ex_aug) SNew two_tree two_list /\ removal_ok (AO:=ex_aug) SNew two_list /\ probe_ok (probe_key 5%Z) /\
  match u_remove 0 two_tree (probe_key 5%Z), u_remove 3 two_tree (probe_key 5%Z) with
  | Ok (Unw T'), Ok (Fin (Some 50%Z, T2) 0) =>
      t_st T' = t_st two_tree /\ t_len T' = 49 /\ t_len T2 = 48 /\
      finds T' 5%Z = true /\ finds T' 32%Z = false /\ finds T' 33%Z = true
  | _, _ => False
  end.
Proof.
  split; [exact two_reachable|]. split; [split; [by left|by left]|]. split; [apply probe_key_legal|].
  vm_compute. split_and!; reflexivity.
Qed.
Example interrupted_remove_any_ex :
  any_legal (A:=nat) (AO:=ex_aug) SNew [] (two_ops ++ [ORemove (probe_key 5%Z)]) /\
  exec (AO:=ex_aug) SNew two_ops = Ok ((spec_exec SNew two_ops).1, two_tree) /\ entries two_tree = Ok two_list /\
  match u_remove 1 two_tree (probe_key 5%Z) with
  | Ok (Unw T') => leaf_merges T' = leaf_merges two_tree /\ finds T' 5%Z = false /\ finds T' 32%Z = false
  | _ => False
  end.
Proof.
  split; [split; [done|vm_compute; reflexivity|by left|by left]|].
  split; [exact (proj1 (tree_of_ok (AO:=ex_aug) SNew two_ops two_legal))|].
  split; [vm_compute; reflexivity|]. vm_compute. split_and!; reflexivity.
Qed.

(** A merge cut short: the parent still lists the leaf that was taken out, and
    the next lookup that goes there reads freed storage. *)
Definition low_ops : list (op Z Z) := zinserts (zseq 0 65) ++ zremoves (zseq 32 33).
Definition low_tree : tree Z Z nat := tree_of (AO:=ex_aug) SNew low_ops.
Definition low_list : list (Z * Z) := zpairs (zseq 0 32).
Lemma low_reachable : reachable (AO:=ex_aug) SNew low_tree low_list.
Proof.
  apply (tree_of_reachable (PF:=dev_build) (AO:=ex_aug) SNew low_ops low_list); [|vm_compute; reflexivity].
  apply zops_legal; [done|by left|by vm_compute|done].
Qed.
Example interrupted_remove_ex2 :
  reachable (AO:=ex_aug) SNew low_tree low_list /\ removal_ok (AO:=ex_aug) SNew low_list /\ probe_ok (probe_key 5%Z) /\
  match u_remove 0 low_tree (probe_key 5%Z), u_remove 1 low_tree (probe_key 5%Z) with
  | Ok (Unw T0), Ok (Unw T1) =>
      leaf_merges T0 <> leaf_merges low_tree /\ leaf_merges T1 <> leaf_merges low_tree /\
      length (List.filter (finds (recached T0 None)) (zseq 0 32)) = 15 /\
      length (List.filter (finds (recached T1 None)) (zseq 0 32)) = 31
  | _, _ => False
  end.
Proof.
  split; [exact low_reachable|]. split; [split; [by left|by left]|]. split; [apply probe_key_legal|].
  vm_compute. split_and!; done.
Qed.
Theorem interrupted_remove_refuted :
  exists (T T' : tree Z Z nat) l n k k', reachable (AO:=ex_aug) SNew T l /\ removal_ok (AO:=ex_aug) SNew l /\
    u_remove (AO:=ex_aug) n T (probe_key k) = Ok (Unw T') /\ (k', 10 * k')%Z ∈ l /\ get T' (probe_key k') = UB.
Proof.
  destruct (u_remove (AO:=ex_aug) 0 low_tree (probe_key 5%Z)) as [[?|T']| | | |] eqn:E; [|..].
  all: try (exfalso; vm_compute in E; discriminate).
  exists low_tree, T', low_list, 0, 5%Z, 20%Z. split_and!; [exact low_reachable|split; [by left|by left]|exact E| |].
  - apply elem_of_list_In. vm_compute. tauto.
  - revert E. vm_compute. intros E. injection E as <-. reflexivity.
Qed.
Print Assumptions interrupted_remove_refuted.

(** Going on after an interrupted update.  Removing the only entry: [first]
    reads an uninitialised slot.  Inserting the first entry: the next removal
    counts below zero. *)
Theorem interrupted_resume_refuted :
  (exists (T T' : tree Z Z nat) l k, reachable (AO:=ex_aug) SNew T l /\
    u_remove (AO:=ex_aug) 0 T (probe_key k) = Ok (Unw T') /\ first T' = UB) /\
  (exists (T T' : tree Z Z nat) k v, reachable (AO:=ex_aug) SNew T [] /\
    u_insert (AO:=ex_aug) 0 T k v = Ok (Unw T') /\ remove (AO:=ex_aug) T' (probe_key k) = Panic).
Proof.
  split.
  - exists (tree_of (AO:=ex_aug) SNew (zinserts [1%Z] ++ zremoves [])).
    destruct (u_remove (AO:=ex_aug) 0 (tree_of SNew (zinserts [1%Z] ++ zremoves [])) (probe_key 1%Z)) as [[?|T']| | | |] eqn:E.
    all: try (exfalso; vm_compute in E; discriminate).
    exists T', [(1%Z, 10%Z)], 1%Z. split_and!; [|exact E|].
    + apply (tree_of_reachable (PF:=dev_build) (AO:=ex_aug) SNew (zinserts [1%Z] ++ zremoves [])); [|vm_compute; reflexivity].
      apply zops_legal; [done|by left|by vm_compute|done].
    + revert E. vm_compute. intros E. injection E as <-. reflexivity.
  - exists tree_new.
    destruct (u_insert (AO:=ex_aug) 0 tree_new 1%Z 10%Z) as [[?|T']| | | |] eqn:E.
    all: try (exfalso; vm_compute in E; discriminate).
    exists T', 1%Z, 10%Z. split_and!; [|exact E|].
    + exists [], []. split; [|done]. by split.
    + revert E. vm_compute. intros E. injection E as <-. reflexivity.
Qed.
Print Assumptions interrupted_resume_refuted.
