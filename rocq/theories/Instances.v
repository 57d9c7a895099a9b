(** Concrete keys and augmentations used by the examples. *)
From stdpp Require Import list sorting.
From Coq Require Import ZArith.
From Verif Require Import Base Slots Tree Remove Iterators Observe BulkLoad History Spec Augment GroupSpec HistProof HistTop.

Global Instance z_key : KeyOps Z := Z.compare.
Global Instance z_laws : OrdLaws Z.
Proof.
  split; unfold kcmp, z_key.
  - apply Z.compare_refl.
  - intros x y. apply Z.compare_antisym.
  - intros x y z. rewrite !Z.compare_lt_iff. lia.
  - intros x y z H. apply Z.compare_eq in H. by subst.
Qed.

Definition zseq (a : Z) (n : nat) : list Z := map (fun i => (a + Z.of_nat i)%Z) (seq 0 n).
Definition zpairs (l : list Z) : list (Z * Z) := map (fun k => (k, (10 * k)%Z)) l.
Definition zinserts (l : list Z) : list (op Z Z) := map (fun k => OInsert k (10 * k)%Z) l.
Definition zremoves (l : list Z) : list (op Z Z) := map (fun k => ORemove (probe_key k)) l.

Fixpoint zsorted_b (l : list (Z * Z)) : bool :=
  match l with
  | x :: (y :: _) as l' => Z.leb (fst x) (fst y) && zsorted_b l'
  | _ => true
  end.
Lemma zsorted l : zsorted_b l = true -> key_sorted l.
Proof.
  intros H. unfold key_sorted. apply Sorted_StronglySorted.
  { intros x y z. unfold kcmp, z_key. rewrite !Z.compare_le_iff. lia. }
  induction l as [|x l IH]; [constructor|]. destruct l as [|y l]; [repeat constructor|].
  apply andb_prop in H as [H1 H2]. constructor; [by apply IH|]. constructor. unfold kcmp, z_key.
  rewrite Z.compare_le_iff. by apply Z.leb_le.
Qed.

Lemma spec_put_length (kv : Z * Z) l : length (spec_put kv l) <= S (length l).
Proof. induction l as [|x l IH]; simpl; [lia|]. destruct (kcmp (fst x) (fst kv)); simpl; lia. Qed.
Lemma spec_load_length (data : list (Z * Z)) : length (spec_load data) <= length data.
Proof.
  unfold spec_load. assert (forall l, length (foldl (fun l kv => spec_put kv l) l data) <= length l + length data) as H; [|apply H].
  induction data as [|x data IH]; intros l; simpl; [lia|]. rewrite IH. pose proof (spec_put_length x l). lia.
Qed.

(** Histories that insert some keys and then remove some, and the tree they give. *)
Section ExTrees.
Context {A : Type} {AO : AugOps Z Z A} {PF : Profile}.
Definition tree_of (b : start Z Z) (ops : list (op Z Z)) : tree Z Z A :=
  match exec b ops with Ok (_, T) => T | _ => tree_new end.

Lemma zops_ok ins del : Forall op_ok (zinserts ins ++ zremoves del).
Proof.
  apply Forall_app. split; apply Forall_map, Forall_forall; [done|]. intros x _. apply probe_key_legal.
Qed.
Lemma zops_legal b ins del : start_ok b -> orphan_free (length (spec_begin b)) ->
  (N.of_nat (length (spec_begin b) + length (zinserts ins ++ zremoves del)) < 2 ^ 64)%N ->
  aug_needs_drop (K:=Z) (V:=Z) (A:=A) = false -> legal (A:=A) b (zinserts ins ++ zremoves del).
Proof.
  intros Hb Ho Hn Hd. split; [done|apply zops_ok|by apply fits_short|done|by apply drops_none].
Qed.
Lemma tree_of_ok b ops : legal (A:=A) b ops ->
  exec b ops = Ok ((spec_exec b ops).1, tree_of b ops) /\ reachable b (tree_of b ops) (spec_exec b ops).2.
Proof.
  intros Hl. destruct (history_ok b ops Hl) as (T & E & _). unfold tree_of. rewrite E. split; [done|].
  exists ops, (spec_exec b ops).1. by split; [apply legal_proper|].
Qed.
Lemma tree_of_reachable b ops l : legal (A:=A) b ops -> (spec_exec b ops).2 = l -> reachable b (tree_of b ops) l.
Proof. intros Hl <-. by apply tree_of_ok. Qed.
End ExTrees.

(** 200 keys inserted, 120 of them removed: keys 0-49 and 170-199 are left. *)
Definition ex_ops : list (op Z Z) := zinserts (zseq 0 200) ++ zremoves (zseq 50 120).
Definition ex_list : list (Z * Z) := zpairs (zseq 0 50 ++ zseq 170 30).
Definition ex_tree {A} {AO : AugOps Z Z A} {PF : Profile} : tree Z Z A := tree_of SNew ex_ops.
Lemma ex_legal {A} {AO : AugOps Z Z A} {PF : Profile} : aug_needs_drop (K:=Z) (V:=Z) (A:=A) = false -> legal (A:=A) SNew ex_ops.
Proof. intros Hd. apply zops_legal; [done|by left|by vm_compute|done]. Qed.
Lemma ex_reachable {A} {AO : AugOps Z Z A} {PF : Profile} : aug_needs_drop (K:=Z) (V:=Z) (A:=A) = false ->
  reachable (A:=A) SNew ex_tree ex_list.
Proof. intros Hd. refine (tree_of_reachable SNew ex_ops ex_list (ex_legal Hd) _). vm_compute. reflexivity. Qed.

(** Groups of ten consecutive keys. *)
Global Instance z_group : FromRef Z Z := fun k => (k / 10)%Z.
Global Instance z_mono : MonoGroup Z Z.
Proof.
  intros x y. unfold kcmp, z_key, from_ref, z_group. intros H. apply (Z.div_le_mono x y 10) in H; [exact H|done].
Qed.
