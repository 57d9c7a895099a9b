(** C67, C68: what a release build changes. *)
From stdpp Require Import list sorting.
From Verif Require Import Base Slots BinSearch LeafNode InnerNode Store Tree Remove Iterators Observe
  BulkLoad Cursor Augment MapSet History SetHist Spec Order HistProof HistTop ReleaseSpec ReleaseProof ReleaseTop Instances.

(** C67: a history gives the same results and the same tree in both builds, unless
    it panics in the debug build.  For all comparisons, augmentations, starts and
    histories, legal or not. *)
Theorem release_same {K V A} {KO : KeyOps K} {AO : AugOps K V A} (b : start K V) (ops : list (op K V)) :
  same_unless_panic (exec (PF:=dev_build) (A:=A) b ops) (exec (PF:=release_build) b ops).
Proof. exact (exec_sim b ops). Qed.
Print Assumptions release_same.
(** the exception is met: removing from 4161 bulk loaded keys; and 200 keys without it *)
Example release_same_ex :
  exec (PF:=dev_build) (AO:=count_aug) (SBulk (zpairs (zseq 0 4161))) (zremoves [4160%Z]) = Panic /\
  match exec (PF:=release_build) (AO:=count_aug) (SBulk (zpairs (zseq 0 200))) (zremoves (zseq 0 180)) with
  | Ok (rs, T) => length rs = 180 /\ t_len T = 20
  | _ => False
  end.
Proof. split; vm_compute; done. Qed.

(** C67: so do the calls that start from any tree, iterator or cursor, whatever
    state it is in. *)
Theorem release_same_calls {K V A Q} {KO : KeyOps K} {AO : AugOps K V A} {SO : SearchOps K V A Q}
    (T : tree K V A) (it : iter) (into : into_iter K V A) (c : cursor K) (p : probe K) (q : Q) (ends : list bool) :
  same_unless_panic (get (PF:=dev_build) T p) (get (PF:=release_build) T p) /\
  same_unless_panic (last (PF:=dev_build) T) (last (PF:=release_build) T) /\
  same_unless_panic (iter_drive (PF:=dev_build) T it ends) (iter_drive (PF:=release_build) T it ends) /\
  same_unless_panic (into_drive (PF:=dev_build) into ends) (into_drive (PF:=release_build) into ends) /\
  same_unless_panic (into_iter_drop (PF:=dev_build) into) (into_iter_drop (PF:=release_build) into) /\
  same_unless_panic (tree_drop (PF:=dev_build) T) (tree_drop (PF:=release_build) T) /\
  same_unless_panic (cursor_last_with_value (PF:=dev_build) T) (cursor_last_with_value (PF:=release_build) T) /\
  same_unless_panic (cursor_next_with_value (PF:=dev_build) T c) (cursor_next_with_value (PF:=release_build) T c) /\
  same_unless_panic (cursor_prev_with_value (PF:=dev_build) T c) (cursor_prev_with_value (PF:=release_build) T c) /\
  same_unless_panic (cursor_value (PF:=dev_build) T c) (cursor_value (PF:=release_build) T c) /\
  same_unless_panic (remove_by_augmentation (PF:=dev_build) T q) (remove_by_augmentation (PF:=release_build) T q).
Proof. exact (calls_same T it into c p q ends). Qed.
Print Assumptions release_same_calls.
(** a call that differs: the largest entry of an empty tree *)
Example release_same_calls_ex :
  let T : tree Z Z nat := tree_new (AO:=count_aug) in
  cursor_last_with_value (PF:=dev_build) T = Panic /\ cursor_last_with_value (PF:=release_build) T = UB.
Proof. split; [vm_compute; reflexivity|]. exact (last_empty_release (AO:=count_aug)). Qed.

(** C67: sets *)
Theorem release_same_set {K} {KO : KeyOps K} (b : set_start K) (T : set_tree K) (ops : list (set_op K))
    (it : into_iter K unit unit) (ends : list bool) :
  same_unless_panic (set_begin (PF:=dev_build) b) (set_begin (PF:=release_build) b) /\
  same_unless_panic (set_run (PF:=dev_build) T ops) (set_run (PF:=release_build) T ops) /\
  same_unless_panic (set_into_drive (PF:=dev_build) it ends) (set_into_drive (PF:=release_build) it ends).
Proof. exact (set_calls_same b T ops it ends). Qed.
Print Assumptions release_same_set.
Example release_same_set_ex :
  match set_begin (PF:=release_build) (StCollect (zseq 0 150)) with
  | Ok T => match set_run (PF:=release_build) T (map (fun k => SoRemove (probe_key k)) (zseq 0 100)) with
            | Ok (_, T') => t_len T' = 50 | _ => False end
  | _ => False
  end.
Proof. vm_compute. done. Qed.

(** C67: for legal histories there is no exception. *)
Theorem release_legal {K V A} {KO : KeyOps K} {OL : OrdLaws K} {AO : AugOps K V A} (b : start K V) (ops : list (op K V)) :
  legal (A:=A) b ops -> exec (PF:=release_build) (A:=A) b ops = exec (PF:=dev_build) b ops.
Proof. exact (legal_same b ops). Qed.
Print Assumptions release_legal.
Example release_legal_ex : legal (AO:=count_aug) SNew ex_ops /\
  match exec (PF:=release_build) (AO:=count_aug) SNew ex_ops with Ok (_, T) => t_len T = 80 /\ t_aug T = 80 | _ => False end.
Proof. split; [by apply (ex_legal (PF:=dev_build))|]. vm_compute. done. Qed.
Theorem release_reachable {K V A} {KO : KeyOps K} {OL : OrdLaws K} {AO : AugOps K V A} (b : start K V) (T : tree K V A) l :
  (reachable (PF:=dev_build) b T l -> reachable (PF:=release_build) b T l) /\
  (orphan_free (length (spec_begin b)) -> reachable (PF:=release_build) b T l -> reachable (PF:=dev_build) b T l).
Proof. exact (reachable_same b T l). Qed.
Print Assumptions release_reachable.
Example release_reachable_ex :
  reachable (PF:=release_build) (AO:=count_aug) SNew (ex_tree (AO:=count_aug) (PF:=release_build)) ex_list /\
  orphan_free (length (spec_begin (SNew (K:=Z) (V:=Z)))) /\ length ex_list = 80.
Proof. split; [by apply ex_reachable|]. split; [by left|done]. Qed.

(** C68: "safe calls in a release build are never undefined behaviour" is false:
    270465 keys leave an inner node over that has one inner node below it. *)
Theorem release_removal_refuted {A} {AO : AugOps Z Z A} : aug_needs_drop (K:=Z) (V:=Z) (A:=A) = false ->
  exists (data : list (Z * Z)) ops,
    key_sorted data /\ N.of_nat (length data) = 270465%N /\ Forall op_ok ops /\ fits (spec_begin (SBulk data)) ops /\
    exec (PF:=release_build) (A:=A) (SBulk data) ops = UB.
Proof. exact release_ub. Qed.
Print Assumptions release_removal_refuted.
(** No smaller size has it: a node left over then stands above a leaf, and the
    removal panics in both builds ([bulk_remove_always_stops]). *)
Theorem release_removal_least n : (N.of_nat n < 270465)%N -> ~ orphan_free n -> ((n + 63) / 64) mod 65 = 1.
Proof. exact (orphan_over_leaf n). Qed.
Print Assumptions release_removal_least.
Example release_removal_least_ex : ~ orphan_free 4161 /\ ~ orphan_free 4224.
Proof. split; apply orphan_over_leaf_ex; vm_compute; done. Qed.
