(** Statements about owned values. *)
From stdpp Require Import list.
From Verif Require Import Base Slots BinSearch LeafNode InnerNode Store Tree Owned.

Section OwnedSpec.
Context {K V A : Type}.

(** The slot of an array holds a value. *)
Definition full_at {X} (s : slots X) (i : nat) : Prop := exists x, s !! i = Some (Some x).

(** The node store holds a value at this place. *)
Definition holds (s : store K V A) (p : place) : Prop :=
  match p with
  | LKey id i => exists n, leaves s !! id = Some (Some n) /\ full_at (l_keys n) i
  | LVal id i => exists n, leaves s !! id = Some (Some n) /\ full_at (l_vals n) i
  | IKey id i => exists n, inners s !! id = Some (Some n) /\ full_at (i_keys n) i
  | IAug id i => exists n, inners s !! id = Some (Some n) /\ full_at (i_augs n) i
  | Root => False
  end.

(** The tree owns the value at this place: it is the root augmentation, or in the store. *)
Definition owns (t : tree K V A) (p : place) : Prop := p = Root \/ holds (t_store t) p.

(** The key of an entry, by its place. *)
Definition key_at (s : store K V A) (p : place) : option K :=
  match p with
  | LKey id i =>
      match leaves s !! id with
      | Some (Some n) => match l_keys n !! i with Some o => o | None => None end
      | _ => None
      end
  | _ => None
  end.

End OwnedSpec.

Section Sooner.
Context {K V A : Type} {KO : KeyOps K} {PF : Profile}.

(** The key of the entry a value is part of. *)
Definition entry_key (s : store K V A) (p : place) : option K :=
  match p with LKey id i | LVal id i => key_at s (LKey id i) | _ => None end.

(** [q] comes before [p] in the loop both are dropped in: the entries in key order,
    the parts of one inner node keys first. *)
Definition sooner (s : store K V A) (q p : place) : Prop :=
  match q, p with
  | IKey a i, IKey b j => a = b /\ i < j
  | IAug a i, IAug b j => a = b /\ i < j
  | IKey a _, IAug b _ => a = b
  | _, _ => exists kq kp, entry_key s q = Some kq /\ entry_key s p = Some kp /\ kcmp kq kp = Lt
  end.
End Sooner.

(** The value is part of an entry. *)
Definition in_leaf (p : place) : Prop := match p with LKey _ _ | LVal _ _ => True | _ => False end.
(** The value is part of inner node [id]. *)
Definition in_inner (id : nat) (p : place) : Prop := match p with IKey j _ | IAug j _ => j = id | _ => False end.

(** A panic at [q] may keep [p] from being dropped: both are parts of entries, or of
    the same inner node. *)
Definition shields (q p : place) : Prop := (in_leaf q /\ in_leaf p) \/ exists id, in_inner id q /\ in_inner id p.

(** How many of these destructors panic. *)
Definition panics (bad : place -> bool) (l : list place) : nat := length (filter (fun p => bad p = true) l).

(** The mood in which a thread ends that has survived [n] panics since it was in mood [m]. *)
Definition mood_after (m : mood) (n : nat) : mood :=
  match m, n with
  | Aborted, _ => Aborted
  | m, 0 => m
  | Calm, 1 => Unwinding
  | _, _ => Aborted
  end.
