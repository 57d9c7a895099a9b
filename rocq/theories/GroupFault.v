(** What [GroupCount] really counts.  [from_leaf] (group.rs:156-193) does not start
    again at 1 when a third group begins, so the last group of a leaf is counted
    with entries it does not have: one for every repeated group between the first
    and the last one of the leaf. *)
From stdpp Require Import list.
From Verif Require Import Base Spec Augment GroupSpec View.

Section GroupFault.
Context {K V G : Type} {KO : KeyOps K} {PF : Profile} {GO : KeyOps G} {FR : FromRef K G}.
Implicit Types (leaf : list (K * V)) (leaves : list (list (K * V))) (w : view K V) (g : G).

(** The leaves of a tree, left to right. *)
Fixpoint view_leaves w : list (list (K * V)) :=
  match w with
  | VLeaf _ kvs => [kvs]
  | VInner _ _ ch => concat (map view_leaves ch)
  end.

(** The entries of a leaf outside its first group and outside [g]. *)
Definition between g leaf : list (K * V) :=
  match leaf with
  | [] => []
  | f :: _ => List.filter (fun x => negb (in_group (group_of f) x) && negb (in_group g x)) leaf
  end.
(** Entries that [g] is counted with but does not have. *)
Definition ghosts g leaf : nat :=
  match leaf, list.last leaf with
  | f :: _, Some z =>
      if in_group g z && negb (in_group g f) then length (between g leaf) - group_number (between g leaf) else 0
  | _, _ => 0
  end.

(** What is counted for [g]; [None] is an entry that is not there. *)
Definition counted_in g leaf : list (option (K * V)) :=
  map Some (group_members g leaf) ++ repeat None (ghosts g leaf).
Definition counted g leaves : list (option (K * V)) := concat (map (counted_in g) leaves).

(** Every group of the leaf other than its first and its last one has one entry there. *)
Definition single_inside leaf : Prop :=
  forall x, x ∈ leaf ->
    group_size (group_of x : G) leaf = 1 \/
    (exists y, head leaf = Some y /\ in_group (group_of x : G) y = true) \/
    (exists y, list.last leaf = Some y /\ in_group (group_of x : G) y = true).

(** The leaves whose entries still count when the rank of [k] is asked: those from
    the last node on whose first child the search went into, up to the leaf it
    ends in.  The flag says whether there is such a node. *)
Definition goes_to (k : K) (ks : list K) : nat :=
  length (List.filter (fun s => match kcmp s k with Gt => false | _ => true end) ks).
Fixpoint remembered (k : K) w : list (list (K * V)) * bool :=
  match w with
  | VLeaf _ kvs => ([kvs], false)
  | VInner _ ks ch =>
      let i := goes_to k ks in
      let '(ls, cut) := nth i (map (remembered k) ch) ([], false) in
      if cut then (ls, true)
      else match i with
        | 0 => (ls, true)
        | _ => (concat (map view_leaves (take i ch)) ++ ls, false)
        end
  end.

(** All leaves but the last one, and the last one. *)
Definition earlier leaves : list (list (K * V)) := removelast leaves.
Definition final leaves : list (K * V) := default [] (list.last leaves).
End GroupFault.
