(** C33, C37-C39, C43, C44: visitors, drop glue, height, occupancy and the node store. *)
From stdpp Require Import list.
From Coq Require Import ZArith.
From Verif Require Import Base Slots LeafNode InnerNode Store Tree Remove Iterators Observe BulkLoad History Spec Contents Augment
  AugSpec View Instances HistTop HistProof MapTop ViewRead ShapeTop GarbageSpec Garbage GarbageGrow DropSpec DropExact.

(** The examples are computed in the dev profile. *)
Local Existing Instance dev_build.

Local Instance ex_aug : AugOps Z Z nat := count_aug.

(** C33: every tree shows exactly one tree of nodes, and a visitor walks it from
    the root, seeing for each child the summary computed from the entries below. *)
Theorem visit_walks_path {K V A} {KO : KeyOps K} {PF : Profile} {OL : OrdLaws K} {AO : AugOps K V A}
    (b : start K V) (ops : list (op K V)) rs (T : tree K V A) w :
  proper (A:=A) b ops -> exec b ops = Ok (rs, T) -> (Exists is_write ops -> key_aug (A:=A) (V:=V) (K:=K)) ->
  tree_shows T w ->
  forall S R (vis : visitor K V A S R) st, descend_visit T vis st = walk vis w st.
Proof. exact (visit_top b ops rs T w). Qed.
Print Assumptions visit_walks_path.
(** the visitor that goes to the last child whose summary is not zero, then
    returns the last key *)
Definition last_vis : visitor Z Z nat nat (option Z * nat) := {|
  visit_inner := fun st ks aus => (st + list_sum aus, GoDown (length ks));
  visit_leaf := fun st ks vs => Some (list.last ks, st) |}.
Definition ex_view : view Z Z := tree_view (A:=nat) ex_tree.
Lemma ex_shows : tree_shows (A:=nat) ex_tree ex_view.
Proof. apply tree_view_shows. vm_compute. reflexivity. Qed.
Example visit_walks_path_ex :
  proper (A:=nat) SNew ex_ops /\ tree_shows (A:=nat) ex_tree ex_view /\
  descend_visit (A:=nat) ex_tree last_vis 0 = Ok (Some (Some 199%Z, 80)).
Proof. split; [by apply legal_proper, ex_legal|]. split; [apply ex_shows|]. vm_compute. done. Qed.

(** C38: all leaves are [h] inner levels down, [h] fits the visit stack, and the
    number of entries grows exponentially with [h]. *)
Theorem height_logarithmic {K V A} {KO : KeyOps K} {PF : Profile} {OL : OrdLaws K} {AO : AugOps K V A}
    (b : start K V) (T : tree K V A) l :
  reachable b T l ->
  exists w h, tree_shows T w /\ view_entries w = l /\ occupied 0 0 h w /\ h <= MAX_DEPTH /\
    (forall h', h = S h' -> (16 * 17 ^ N.of_nat h' <= N.of_nat (length l))%N).
Proof. exact (height_top b T l). Qed.
Print Assumptions height_logarithmic.
Example height_logarithmic_ex :
  reachable (A:=nat) SNew ex_tree ex_list /\ tree_shows (A:=nat) ex_tree ex_view /\ occupied 0 0 1 ex_view.
Proof.
  split; [by apply ex_reachable|]. split; [apply ex_shows|]. vm_compute. repeat constructor; apply Nat.leb_le; done.
Qed.

(** C39: no node is more than full; in a tree built from empty every node but the
    root is at least a quarter full; all leaves are at the same depth.  The keys
    of the inner nodes separate their children, and the leaves hold the entries. *)
Theorem node_occupancy {K V A} {KO : KeyOps K} {PF : Profile} {OL : OrdLaws K} {AO : AugOps K V A}
    (T : tree K V A) l :
  reachable SNew T l ->
  exists w h, tree_shows T w /\ (forall w', tree_shows T w' -> w' = w) /\ view_entries w = l /\ separated w /\
    occupied (match h with 0 => 0 | _ => 1 end) 16 h w.
Proof. exact (occupancy_top T l). Qed.
Print Assumptions node_occupancy.
Example node_occupancy_ex :
  reachable (A:=nat) SNew ex_tree ex_list /\ tree_shows (A:=nat) ex_tree ex_view /\ occupied 1 16 1 ex_view /\
  match ex_view with VInner _ ks ch => length ks = 3 | _ => False end.
Proof.
  split; [by apply ex_reachable|]. split; [apply ex_shows|]. split; [|vm_compute; done].
  vm_compute. repeat constructor; apply Nat.leb_le; done.
Qed.

(** C43.  Full statement: the live nodes of the store are exactly the nodes of the
    tree.  This holds for the leaves; for inner nodes only one direction. *)
Theorem live_nodes_partial {K V A} {KO : KeyOps K} {PF : Profile} {OL : OrdLaws K} {AO : AugOps K V A}
    (b : start K V) (T : tree K V A) l w :
  reachable b T l -> tree_shows T w ->
  NoDup (view_leaf_ids w) /\ NoDup (view_inner_ids w) /\
  (forall id, id ∈ view_leaf_ids w <-> exists n, leaves (t_store T) !! id = Some (Some n)) /\
  (forall id, id ∈ view_inner_ids w -> exists n, inners (t_store T) !! id = Some (Some n)).
Proof. exact (live_top b T l w). Qed.
Print Assumptions live_nodes_partial.
Example live_nodes_partial_ex :
  reachable (A:=nat) SNew ex_tree ex_list /\ tree_shows (A:=nat) ex_tree ex_view /\
  length (view_leaf_ids ex_view) = 4 /\ length (leaves (t_store (A:=nat) ex_tree)) = 6.
Proof. split; [by apply ex_reachable|]. split; [apply ex_shows|]. split; vm_compute; reflexivity. Qed.

(** When the root has one child left, the child becomes the root and the old root
    stays in the store. *)
Definition garbage_ops : list (op Z Z) := zinserts (zseq 0 70) ++ zremoves (zseq 0 60).
Theorem inner_garbage_refuted :
  exists (T : tree Z Z nat) l w id n, reachable SNew T l /\ tree_shows T w /\
    inners (t_store T) !! id = Some (Some n) /\ id ∉ view_inner_ids w.
Proof.
  exists (tree_of SNew garbage_ops), (zpairs (zseq 60 10)), (tree_view (A:=nat) (tree_of SNew garbage_ops)), 0.
  eexists. split.
  { apply (tree_of_reachable SNew garbage_ops (zpairs (zseq 60 10))); [|vm_compute; reflexivity]. unfold garbage_ops.
    apply zops_legal; [done|by left|by vm_compute|done]. }
  split; [apply tree_view_shows; vm_compute; reflexivity|]. split; [vm_compute; reflexivity|].
  assert (view_inner_ids (tree_view (A:=nat) (tree_of SNew garbage_ops)) = []) as -> by (vm_compute; reflexivity).
  apply not_elem_of_nil.
Qed.
Print Assumptions inner_garbage_refuted.

(** Exactly: an inner node that is alive but not in the tree is an old root; it has
    no keys, which no inner node of the tree has. *)
Theorem inner_garbage_nodes {K V A} {KO : KeyOps K} {PF : Profile} {OL : OrdLaws K} {AO : AugOps K V A}
    (b : start K V) (T : tree K V A) l w id n :
  reachable b T l -> orphan_free (length (spec_begin b)) -> tree_shows T w ->
  inners (t_store T) !! id = Some (Some n) -> id ∈ view_inner_ids w <-> i_size n <> 0.
Proof. exact (left_exact b T l w id n). Qed.
Print Assumptions inner_garbage_nodes.
(** No call but a removal adds one, and a removal adds one for the level it takes
    off the tree. *)
Theorem inner_garbage_step {K V A} {KO : KeyOps K} {PF : Profile} {OL : OrdLaws K} {AO : AugOps K V A}
    (b : start K V) (T T' : tree K V A) l o r w w' :
  reachable b T l -> op_ok o -> (is_remove o -> removal_ok (A:=A) b l) ->
  step T o = Ok (r, T') -> tree_shows T w -> tree_shows T' w' ->
  left_over T' w' = match o with
                    | OClear => 0
                    | ORemove _ => left_over T w + (view_height w - view_height w')
                    | _ => left_over T w
                    end /\
  (is_remove o -> view_height w' <= view_height w).
Proof. exact (step_left b T T' l o r w w'). Qed.
Print Assumptions inner_garbage_step.
Theorem inner_garbage_start {K V A} {KO : KeyOps K} {PF : Profile} {OL : OrdLaws K} {AO : AugOps K V A}
    (b : start K V) (T : tree K V A) w :
  start_ok b -> begin b = Ok T -> tree_shows T w -> left_over T w = 0.
Proof. exact (begin_left b T w). Qed.
Print Assumptions inner_garbage_start.
(** So a map that never holds more than 70 entries can keep any number of them. *)
Theorem inner_garbage_unbounded {A} {AO : AugOps Z Z A} {PF : Profile} (n : nat) :
  aug_needs_drop (K:=Z) (V:=Z) (A:=A) = false ->
  exists (T : tree Z Z A) w, reachable SNew T (zpairs (zseq 60 10)) /\ tree_shows T w /\ left_over T w = n.
Proof. exact (grows n). Qed.
Print Assumptions inner_garbage_unbounded.
(** 70 keys; the 39th removal takes the tree from two leaves to one *)
Definition shrinking_ops (n : nat) : list (op Z Z) := zinserts (zseq 0 70) ++ zremoves (zseq 0 n).
Definition garbage_tree (n : nat) : tree Z Z nat := tree_of (AO:=ex_aug) SNew (shrinking_ops n).
Definition garbage_view (n : nat) : view Z Z := tree_view (A:=nat) (garbage_tree n).
Example inner_garbage_ex :
  reachable (AO:=ex_aug) SNew (garbage_tree 38) (zpairs (zseq 38 32)) /\
  tree_shows (garbage_tree 38) (garbage_view 38) /\ tree_shows (garbage_tree 39) (garbage_view 39) /\
  step (AO:=ex_aug) (garbage_tree 38) (ORemove (probe_key 38%Z)) = Ok (RVal (Some 380%Z), garbage_tree 39) /\
  (left_over (garbage_tree 38) (garbage_view 38), view_height (garbage_view 38)) = (0, 1) /\
  (left_over (garbage_tree 39) (garbage_view 39), view_height (garbage_view 39)) = (1, 0) /\
  match inners (t_store (garbage_tree 39)) !! 0 with Some (Some n) => i_size n = 0 | _ => False end.
Proof.
  split.
  { apply (tree_of_reachable (PF:=dev_build) (AO:=ex_aug) SNew (shrinking_ops 38) (zpairs (zseq 38 32))); [|vm_compute; reflexivity].
    apply zops_legal; [done|by left|by vm_compute|done]. }
  split; [apply (tree_view_shows (garbage_tree 38)); vm_compute; reflexivity|].
  split; [apply (tree_view_shows (garbage_tree 39)); vm_compute; reflexivity|].
  split; [vm_compute; reflexivity|]. split; [vm_compute; reflexivity|]. split; [vm_compute; reflexivity|]. vm_compute. reflexivity.
Qed.

(** C44: the links between the leaves follow the key order in both directions. *)
Theorem leaf_links {K V A} {KO : KeyOps K} {PF : Profile} {OL : OrdLaws K} {AO : AugOps K V A}
    (b : start K V) (T : tree K V A) l w :
  reachable b T l -> tree_shows T w ->
  view_entries w = l /\
  (forall i id n, view_leaf_ids w !! i = Some id -> get_leaf (t_store T) id = Ok n ->
    l_next n = view_leaf_ids w !! S i /\
    l_prev n = match i with 0 => None | S i' => view_leaf_ids w !! i' end).
Proof. exact (links_top b T l w). Qed.
Print Assumptions leaf_links.
Example leaf_links_ex :
  reachable (A:=nat) SNew ex_tree ex_list /\ tree_shows (A:=nat) ex_tree ex_view /\
  match view_leaf_ids ex_view with
  | [a; b; c; d] => match get_leaf (t_store (A:=nat) ex_tree) b with Ok n => l_next n = Some c /\ l_prev n = Some a | _ => False end
  | _ => False end.
Proof. split; [by apply ex_reachable|]. split; [apply ex_shows|]. vm_compute. done. Qed.

(** C37.  Full statement: no history drops an augmentation twice.  Missing:
    removals while 272 or more entries are stored. *)
Theorem augmentation_drops_partial {K V A} {KO : KeyOps K} {PF : Profile} {OL : OrdLaws K} {AO : AugOps K V A}
    (b : start K V) (ops : list (op K V)) :
  start_ok b -> Forall op_ok ops -> fits (spec_begin b) ops ->
  (Exists is_remove ops -> orphan_free (length (spec_begin b))) ->
  drops_ok (A:=A) (spec_begin b) ops ->
  exists T, exec (A:=A) b ops = Ok ((spec_exec b ops).1, T) /\ tree_drop T = Ok (spec_exec b ops).2.
Proof. exact (drops_top b ops). Qed.
Print Assumptions augmentation_drops_partial.

Section DropGlue.
(** a [GroupCount] over a group type that owns memory *)
Local Instance drop_aug : AugOps Z Z (group_count Z) := group_aug true.

Example augmentation_drops_partial_ex :
  let ops := zinserts (zseq 0 150) ++ zremoves (zseq 20 100) in
  aug_needs_drop (K:=Z) (V:=Z) (A:=group_count Z) = true /\ Forall op_ok ops /\ fits (spec_begin SNew) ops /\
  drops_ok (A:=group_count Z) (spec_begin SNew) ops /\
  match exec (A:=group_count Z) SNew ops with Ok (_, T) => tree_drop T = Ok (zpairs (zseq 0 20 ++ zseq 120 30)) | _ => False end.
Proof.
  split; [done|]. split; [apply zops_ok|]. split; [apply fits_short; by vm_compute|].
  split; [apply drops_short; apply Nat.ltb_lt; by vm_compute|]. vm_compute. done.
Qed.

(** Merging two inner nodes moves the augmentations of the right one into the left
    one and then drops the right one, whose size still counts them. *)
Theorem augmentation_double_drop_refuted :
  exists ops : list (op Z Z), Forall op_ok ops /\ fits (spec_begin SNew) ops /\
    exec (A:=group_count Z) SNew ops = UB.
Proof.
  exists (zinserts (zseq 0 2200) ++ zremoves (zseq 0 1900)). split; [apply zops_ok|]. split; [apply fits_short; by vm_compute|].
  vm_compute. reflexivity.
Qed.
Print Assumptions augmentation_double_drop_refuted.

(** Exactly the histories that merge inner nodes go wrong, and only with drop glue. *)
Theorem augmentation_drops_exact {K V A} {KO : KeyOps K} {PF : Profile} {OL : OrdLaws K} {AO : AugOps K V A}
    (b : start K V) (ops : list (op K V)) :
  start_ok b -> Forall op_ok ops -> fits (spec_begin b) ops ->
  (Exists is_remove ops -> orphan_free (length (spec_begin b))) ->
  (aug_needs_drop (K:=K) (V:=V) (A:=A) = true -> merges AO b ops -> exec (A:=A) b ops = UB) /\
  (aug_needs_drop (K:=K) (V:=V) (A:=A) = false \/ ~ merges AO b ops ->
    exists T, exec (A:=A) b ops = Ok ((spec_exec b ops).1, T) /\ tree_drop T = Ok (spec_exec b ops).2).
Proof. exact (drops_exact_top b ops). Qed.
Print Assumptions augmentation_drops_exact.

Definition merging_ops : list (op Z Z) := zinserts (zseq 0 2200) ++ zremoves (zseq 0 1120).
Definition merging_tree : tree Z Z (group_count Z) :=
  match exec (AO:=nodrop drop_aug) SNew merging_ops with Ok (_, T) => T | _ => tree_new (AO:=drop_aug) end.
(** the 1121st removal merges two inner nodes *)
Example augmentation_drops_exact_ex :
  aug_needs_drop (K:=Z) (V:=Z) (A:=group_count Z) = true /\
  merges drop_aug SNew (merging_ops ++ [ORemove (probe_key 1120%Z)]) /\
  exec (AO:=drop_aug) SNew (merging_ops ++ [ORemove (probe_key 1120%Z)]) = UB /\
  match exec (AO:=drop_aug) SNew merging_ops with Ok _ => True | _ => False end.
Proof.
  split; [done|]. split; [|split; [vm_compute; reflexivity|vm_compute; exact I]].
  exists merging_ops, (probe_key 1120%Z), [].
  exists (match exec (AO:=nodrop drop_aug) SNew merging_ops with Ok (rs, _) => rs | _ => [] end), merging_tree.
  exists (match remove (AO:=nodrop drop_aug) merging_tree (probe_key 1120%Z) with Ok (r, _) => r | _ => None end).
  exists (match remove (AO:=nodrop drop_aug) merging_tree (probe_key 1120%Z) with Ok (_, T) => T | _ => merging_tree end).
  split; [done|]. split; [vm_compute; reflexivity|]. split; [vm_compute; reflexivity|].
  apply Nat.ltb_lt. vm_compute. reflexivity.
Qed.
End DropGlue.
