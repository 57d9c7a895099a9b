(** Groups of entries: the specification of the [GroupCount] augmentation. *)
From stdpp Require Import list.
From Verif Require Import Base Spec Augment.

(** Equal or larger keys have equal or larger groups. *)
Class MonoGroup (K G : Type) {KO : KeyOps K} {GO : KeyOps G} {FR : FromRef K G} : Prop :=
  group_mono : forall x y : K, kcmp x y <> Gt -> kcmp (from_ref x : G) (from_ref y) <> Gt.

Section GroupSpec.
Context {K V G : Type} {KO : KeyOps K} {PF : Profile} {GO : KeyOps G} {FR : FromRef K G}.

Definition group_of (kv : K * V) : G := from_ref (fst kv).
Definition in_group (g : G) (kv : K * V) : bool :=
  match kcmp (group_of kv) g with Eq => true | _ => false end.

(** The entries of group [g], in key order. *)
Definition group_members (g : G) (l : list (K * V)) : list (K * V) := List.filter (in_group g) l.
Definition group_size (g : G) (l : list (K * V)) : nat := length (group_members g l).

(** Number of distinct groups: count each entry whose group does not occur later. *)
Fixpoint group_number (l : list (K * V)) : nat :=
  match l with
  | [] => 0
  | kv :: l' => (if existsb (in_group (group_of kv)) l' then 0 else 1) + group_number l'
  end.

(** The group sizes for which [GroupCount] counts right: every group other than
    the first and the last has one entry or at least 63. *)
Definition sizes_ok (l : list (K * V)) : Prop :=
  forall x, x ∈ l ->
    group_size (group_of x) l = 1 \/ 63 <= group_size (group_of x) l \/
    (exists y, head l = Some y /\ in_group (group_of x) y = true) \/
    (exists y, list.last l = Some y /\ in_group (group_of x) y = true).

(** Number of entries of the group of [k] with a key smaller than [k]. *)
Definition group_rank_of (k : K) (l : list (K * V)) : nat :=
  spec_rank k (group_members (from_ref k) l).

(** The query (g, i): the [i]-th entry of group [g]; its position in the map. *)
Fixpoint group_pos (l : list (K * V)) (g : G) (i : nat) : option nat :=
  match l with
  | [] => None
  | x :: l' =>
      if in_group g x then
        match i with 0 => Some 0 | S i' => S <$> group_pos l' g i' end
      else S <$> group_pos l' g i
  end.
End GroupSpec.
