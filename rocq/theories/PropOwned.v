(** C62-C64: who drops what, when [Drop] and [Clone] of keys, values and augmentations
    may panic. *)
From stdpp Require Import list.
From Coq Require Import ZArith.
From Verif Require Import Base Slots Store Tree Remove Iterators Observe BulkLoad History Spec
  Augment Instances HistProof HistTop Owned OwnedSpec OwnedTop.

(** The examples are computed in the dev profile. *)
Local Existing Instance dev_build.

(** An augmentation with a destructor: the list of all keys below. *)
Local Instance keys_aug : AugOps Z Z (list Z) := {|
  from_leaf := fun ks _ => ks;
  from_inner := fun _ cs => concat cs;
  aug_default := [];
  aug_needs_drop := true;
|}.
(** 100 keys inserted: three leaves under one inner node. *)
Definition own_ops : list (op Z Z) := zinserts (zseq 0 100).
Definition own_tree : tree Z Z (list Z) := tree_of SNew own_ops.
Definition own_list : list (Z * Z) := zpairs (zseq 0 100).
Lemma own_reachable : reachable SNew own_tree own_list.
Proof.
  unfold own_tree. apply (tree_of_reachable SNew own_ops own_list); [|vm_compute; reflexivity]. split.
  - done.
  - apply Forall_map, Forall_forall. done.
  - apply fits_short. by vm_compute.
  - intros H. by left.
  - unfold own_ops, zinserts. generalize (spec_begin (K:=Z) (V:=Z) SNew). induction (zseq 0 100) as [|k ks IH]; intros l; [done|].
    split; [done|apply IH].
Qed.

(** C62: dropping a tree calls the destructor of every value it owns exactly once,
    of the keys of the entries in order. *)
Theorem drop_each_once {K V A} {KO : KeyOps K} {PF : Profile} {OL : OrdLaws K} {AO : AugOps K V A}
    (b : start K V) (T : tree K V A) l bad m :
  reachable b T l -> m <> Aborted -> (forall p, owns T p -> bad p = false) ->
  exists tr, tree_drop_p bad T (mkDrops [] m) = Ok (mkDrops tr m) /\ NoDup tr /\
    (forall p, p ∈ tr <-> owns T p) /\ omap (key_at (t_store T)) tr = map fst l.
Proof. exact (drop_all b T l bad m). Qed.
Print Assumptions drop_each_once.
Example drop_each_once_ex :
  reachable SNew own_tree own_list /\ (forall p, owns own_tree p -> (fun _ => false) p = false) /\
  match tree_drop_p (fun _ => false) own_tree (mkDrops [] Unwinding) with
  | Ok d => mood_of d = Unwinding /\ length (dropped d) = 206 /\
      drop 198 (dropped d) = [LKey 2 35; LVal 2 35; IKey 0 0; IKey 0 1; IAug 0 0; IAug 0 1; IAug 0 2; Root]
  | _ => False
  end.
Proof. split; [exact own_reachable|]. split; [done|]. vm_compute. split_and!; reflexivity. Qed.

(** C62: and when destructors panic, none is called twice and nothing else is; the
    process is aborted exactly at a second panic (the first one if the thread was
    unwinding already); and a panic costs exactly the destructors that come later in
    the same loop: of the entries with greater keys, or of the same inner node. *)
Theorem drop_with_panics {K V A} {KO : KeyOps K} {PF : Profile} {OL : OrdLaws K} {AO : AugOps K V A}
    (b : start K V) (T : tree K V A) l bad m :
  reachable b T l -> m <> Aborted ->
  exists d, tree_drop_p bad T (mkDrops [] m) = Ok d /\ NoDup (dropped d) /\
    (forall p, p ∈ dropped d -> owns T p) /\
    mood_of d = mood_after m (panics bad (dropped d)) /\
    omap (key_at (t_store T)) (dropped d) `prefix_of` map fst l /\
    (mood_of d = Aborted -> exists l' q, dropped d = l' ++ [q] /\ bad q = true /\ mood_after m (panics bad l') <> Aborted) /\
    (mood_of d <> Aborted -> forall p, owns T p ->
      p ∉ dropped d <-> exists q, q ∈ dropped d /\ bad q = true /\ sooner (t_store T) q p).
Proof. exact (drop_panics b T l bad m). Qed.
Print Assumptions drop_with_panics.
(** The key of the second entry panics: its value is still dropped, the other 98
    entries are not; the inner node and the root augmentation are.  If the inner
    node's key panics too, the process is gone. *)
Example drop_with_panics_ex :
  reachable SNew own_tree own_list /\
  match tree_drop_p (fun p => bool_decide (p = LKey 0 1)) own_tree (mkDrops [] Calm),
        tree_drop_p (fun p => bool_decide (p = LKey 0 1 \/ p = IKey 0 0)) own_tree (mkDrops [] Calm) with
  | Ok d, Ok d' =>
      d = mkDrops [LKey 0 0; LVal 0 0; LKey 0 1; LVal 0 1; IKey 0 0; IKey 0 1; IAug 0 0; IAug 0 1; IAug 0 2; Root] Unwinding /\
      d' = mkDrops [LKey 0 0; LVal 0 0; LKey 0 1; LVal 0 1; IKey 0 0] Aborted
  | _, _ => False
  end.
Proof. split; [exact own_reachable|]. vm_compute. split; reflexivity. Qed.

(** C63.  That a tree turned into an iterator hands out or drops everything it owned is
    false: the root augmentation is neither ([into_iter_owned_refuted]).  Everything
    else is dropped exactly once unless it was handed out before, whatever was taken
    from the two ends; panics are as in C62. *)
Theorem into_iter_owned_partial {K V A} {KO : KeyOps K} {PF : Profile} {OL : OrdLaws K} {AO : AugOps K V A}
    (b : start K V) (T : tree K V A) l bad m ends :
  reachable b T l -> m <> Aborted ->
  exists it rs it' d, into_iter_new T = Ok it /\ into_drive it ends = Ok (rs, it') /\
    into_drop_p bad it' (mkDrops [] m) = Ok d /\
    NoDup (dropped d) /\ (forall p, p ∈ dropped d -> holds (ii_store it') p) /\
    (forall p, ~ in_leaf p -> holds (ii_store it') p <-> holds (t_store T) p) /\
    mood_of d = mood_after m (panics bad (dropped d)) /\
    (mood_of d = Aborted -> exists l' q, dropped d = l' ++ [q] /\ bad q = true /\ mood_after m (panics bad l') <> Aborted) /\
    (mood_of d <> Aborted -> forall p, holds (ii_store it') p ->
      p ∉ dropped d <-> exists q, q ∈ dropped d /\ bad q = true /\ sooner (ii_store it') q p).
Proof. exact (into_drop_panics b T l bad m ends). Qed.
Print Assumptions into_iter_owned_partial.
Example into_iter_owned_ex :
  reachable SNew own_tree own_list /\
  match into_iter_new own_tree with
  | Ok it => match into_drive it (replicate 98 true ++ [false]) with
    | Ok (_, it') => match into_drop_p (fun _ => false) it' (mkDrops [] Calm) with
      | Ok d => d = mkDrops [LKey 2 34; LVal 2 34; IKey 0 0; IKey 0 1; IAug 0 0; IAug 0 1; IAug 0 2] Calm
      | _ => False end
    | _ => False end
  | _ => False
  end.
Proof. split; [exact own_reachable|]. vm_compute. reflexivity. Qed.

Theorem into_iter_owned_refuted : exists (AO : AugOps Z Z (list Z)) (T : tree Z Z (list Z)) l it d,
  reachable SNew T l /\ aug_needs_drop (K:=Z) (V:=Z) (A:=list Z) = true /\ into_iter_new T = Ok it /\
  into_drop_p (fun _ => false) it (mkDrops [] Calm) = Ok d /\ mood_of d = Calm /\
  owns T Root /\ t_aug T = map fst l /\ Root ∉ dropped d.
Proof.
  exists keys_aug, own_tree, own_list.
  assert (match into_iter_new own_tree with
          | Ok it => match into_drop_p (fun _ => false) it (mkDrops [] Calm) with
            | Ok d => match mood_of d with Calm => negb (bool_decide (Root ∈ dropped d)) | _ => false end
            | _ => false end
          | _ => false end = true) as H by (vm_compute; reflexivity).
  destruct (into_iter_new own_tree) as [it| | | |]; try done.
  destruct (into_drop_p _ it _) as [d| | | |] eqn:E; try done. destruct (mood_of d) eqn:Em; try done.
  exists it, d. split; [exact own_reachable|]. do 4 (split; [done|]). split; [by left|]. split; [vm_compute; reflexivity|].
  by apply negb_true_iff, bool_decide_eq_false in H.
Qed.
Print Assumptions into_iter_owned_refuted.

(** C64: a clone makes one clone of everything the tree owns; if making one panics, no
    clone is dropped twice, and what was made and is not given back is: the clones of
    entries, if the panic is in an entry, or of parts of the inner node being cloned
    (or what a panic while giving back costs, as in C62). *)
Theorem clone_with_panics {K V A} {KO : KeyOps K} {PF : Profile} {OL : OrdLaws K} {AO : AugOps K V A}
    (b : start K V) (T : tree K V A) l cbad dbad :
  reachable b T l ->
  exists made r, tree_clone_p cbad dbad T = Ok (made, r) /\ NoDup made /\
    (forall p, p ∈ made -> owns T p /\ cbad p = false) /\
    match r with
    | None => forall p, owns T p -> p ∈ made
    | Some d => exists q, owns T q /\ cbad q = true /\
        NoDup (dropped d) /\ (forall p, p ∈ dropped d -> p ∈ made /\ ~ in_leaf p) /\
        mood_of d = mood_after Unwinding (panics dbad (dropped d)) /\
        (mood_of d <> Aborted -> forall p, p ∈ made -> p ∉ dropped d ->
          shields q p \/ exists q, q ∈ dropped d /\ dbad q = true /\ shields q p)
    end.
Proof. exact (clone_panics b T l cbad dbad). Qed.
Print Assumptions clone_with_panics.
(** Cloning a key of the second leaf panics: the clones of 32 entries and two keys
    more are lost for good. *)
Example clone_with_panics_ex :
  reachable SNew own_tree own_list /\
  match tree_clone_p (fun p => bool_decide (p = LKey 1 2)) (fun _ => false) own_tree with
  | Ok (made, Some d) => length made = 72 /\ drop 68 made = [LVal 0 30; LVal 0 31; LKey 1 0; LKey 1 1] /\
      d = mkDrops [IKey 0 0; IKey 0 1; IAug 0 0; IAug 0 1; IAug 0 2; Root] Unwinding
  | _ => False
  end.
Proof. split; [exact own_reachable|]. vm_compute. split_and!; reflexivity. Qed.
