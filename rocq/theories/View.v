(** Specification side of the structural properties: the tree of nodes a caller's
    visitor walks through, read off the store. *)
From stdpp Require Import list.
From Verif Require Import Base Slots LeafNode InnerNode Store Tree Augment.

Inductive view (K V : Type) :=
| VLeaf (id : nat) (kvs : list (K * V))
| VInner (id : nat) (ks : list K) (ch : list (view K V)).
Arguments VLeaf {K V}. Arguments VInner {K V}.

Section View.
Context {K V A : Type} {KO : KeyOps K} {PF : Profile} {AO : AugOps K V A}.
Notation view := (view K V).

Definition view_id (w : view) : node_id :=
  match w with VLeaf id _ => NLeaf id | VInner id _ _ => NInner id end.

(** The store holds exactly these nodes below [w], with all their slots initialised. *)
Inductive shows (s : store K V A) : view -> Prop :=
| shows_leaf id n kvs :
    get_leaf s id = Ok n -> leaf_keys n = Ok (map fst kvs) -> leaf_values n = Ok (map snd kvs) ->
    shows s (VLeaf id kvs)
| shows_inner id n ks ch :
    get_inner s id = Ok n -> inner_keys n = Ok ks -> length ch = S (length ks) ->
    (forall i c, ch !! i = Some c -> inner_child_id n i = Ok (view_id c)) ->
    Forall (shows s) ch ->
    shows s (VInner id ks ch).
Definition tree_shows (T : tree K V A) (w : view) : Prop :=
  t_root T = view_id w /\ shows (t_store T) w.

(** Entries below a node, left to right. *)
Fixpoint view_entries (w : view) : list (K * V) :=
  match w with
  | VLeaf _ kvs => kvs
  | VInner _ _ ch => concat (map view_entries ch)
  end.
Fixpoint view_leaf_ids (w : view) : list nat :=
  match w with
  | VLeaf id _ => [id]
  | VInner _ _ ch => concat (map view_leaf_ids ch)
  end.
Fixpoint view_inner_ids (w : view) : list nat :=
  match w with
  | VLeaf _ _ => []
  | VInner id _ ch => id :: concat (map view_inner_ids ch)
  end.

(** The summary of a node, computed from scratch. *)
Fixpoint view_aug (w : view) : A :=
  match w with
  | VLeaf _ kvs => from_leaf (map fst kvs) (map snd kvs)
  | VInner _ ks ch => from_inner (V:=V) ks (map view_aug ch)
  end.

(** Separator [i] of a node is above every key of the children up to [i] and not
    above any key of the later ones. *)
Inductive separated : view -> Prop :=
| sep_leaf id kvs : separated (VLeaf id kvs)
| sep_inner id ks ch :
    (forall i s j c kv, ks !! i = Some s -> ch !! j = Some c -> kv ∈ view_entries c ->
      (j <= i -> kcmp (fst kv) s = Lt) /\ (i < j -> kcmp (fst kv) s <> Lt)) ->
    Forall separated ch ->
    separated (VInner id ks ch).

(** All leaves [h] levels down; node sizes within the given bounds.  [top] is the
    least size of the top node. *)
Fixpoint occupied (top low h : nat) (w : view) : Prop :=
  match h, w with
  | 0, VLeaf _ kvs => top <= length kvs <= 64
  | S h', VInner _ ks ch =>
      top <= length ks <= 64 /\ length ch = S (length ks) /\ Forall (occupied low low h') ch
  | _, _ => False
  end.

(** The walk of a visitor (visit.rs:6-21) over the view. *)
Fixpoint walk {S R} (vis : visitor K V A S R) (w : view) (st : S) : outcome (option R) :=
  match w with
  | VLeaf _ kvs => Ok (visit_leaf vis st (map fst kvs) (map snd kvs))
  | VInner _ ks ch =>
      let '(st, r) := visit_inner vis st ks (map view_aug ch) in
      match r with
      | GoDown i => nth i (map (fun c => walk vis c st) ch) Panic
      | Cancel => Ok None
      | Complete r => Ok (Some r)
      end
  end.
End View.
