(** C66: how often a call compares keys *)
From stdpp Require Import list.
From Coq Require Import ZArith.
From Verif Require Import Base Slots LeafNode Store Tree Remove Iterators Observe Cursor BulkLoad Spec Augment History View ViewRead GarbageSpec
  Volatile VolatileSpec CostSpec CostTop Instances PropVolatile.

(** The examples are computed in the dev profile. *)
Local Existing Instance dev_build.

(** C66: after any program on a new map, whatever the comparisons answer, the
    next call ends as it would without the counter, and the counter is bounded
    by the number of entries and by the number of levels *)
Theorem comparisons_logarithmic {W K V A} {AO : AugOps K V A} {PF : Profile} (ops : list (vop W K V)) o w :
  vlegal (A:=A) 0 (ops ++ [o]) ->
  exists rs (T1 : tree K V A) w1 l1 r T2 w2 n, vrun tree_new ops w = Ok (rs, T1, w1) /\ entries T1 = Ok l1 /\
    vstep T1 o w1 = Ok (r, T2, w2) /\ vstep T1 (counting_op o) (w1, 0) = Ok (r, T2, (w2, n)) /\
    n <= 12 + 7 * (Nat.log2 (length l1) / 4) /\ (forall v, tree_shows T1 v -> n <= call_cost (view_height v) o).
Proof. exact (new_cost ops o w). Qed.
Print Assumptions comparisons_logarithmic.

Local Instance ex_aug : AugOps Z Z nat := count_aug.
(** Comparisons of the last of some calls on a new map. *)
Definition last_cost (ops : list (vop nat Z Z)) (o : vop nat Z Z) : option nat :=
  match vrun (A:=nat) tree_new ops 0 with
  | Ok (rs, T, w) => match vstep T (counting_op o) (w, 0) with Ok (_, _, (_, n)) => Some n | _ => None end
  | _ => None
  end.
Definition at_key (k : Z) : code nat Z := pure (fun x => Z.compare x k).
Definition odd_inserts (n : nat) : list (vop nat Z Z) :=
  map (fun i => let k := (2 * Z.of_nat i + 1)%Z in VInsert (at_key k) k k) (seq 0 n).
(** One full leaf: 7 for the search. Two levels, with a cached leaf elsewhere and
    with the right one cached; a cursor whose leaf and offset are out of date. *)
Example comparisons_logarithmic_ex :
  vlegal (A:=nat) 0 (moody_ops ++ [VRemove (moody 4)]) /\ last_cost moody_ops (VRemove (moody 4)) = Some 4 /\
  last_cost (odd_inserts 64) (VRemove (at_key 0)) = Some 7 /\
  last_cost (odd_inserts 300) (VInsert (at_key 300) 300 0)%Z = Some 8 /\
  last_cost (odd_inserts 300 ++ [VGet (at_key 1)]) (VGet (at_key 300)) = Some 9 /\
  last_cost (odd_inserts 300 ++ [VGet (at_key 301)]) (VGet (at_key 300)) = Some 7 /\
  last_cost (odd_inserts 300) (VNext (at_key 301) (mkCursor 301 0 3)%Z) = Some 10.
Proof. split; [split; [vm_compute; done|by left|by left]|]. vm_compute. done. Qed.

(** C66: bulk loading compares each item with the one before it, at most; then the same holds *)
Theorem bulk_comparisons {W K V A} {AO : AugOps K V A} {PF : Profile} (c : code2 W K) (data : list (K * V)) w : exists r w1 n,
  bulk_load_c (A:=A) c data w = Ok (r, w1) /\ bulk_load_c (A:=A) (counting2 c) data (w, 0) = Ok (r, (w1, n)) /\ n <= pred (length data) /\
  match r with
  | None => True
  | Some T0 => exists l0, entries T0 = Ok l0 /\ forall (ops : list (vop W K V)) o, vlegal (A:=A) (length l0) (ops ++ [o]) ->
    exists rs T1 w1' l1 r T2 w2 n, vrun T0 ops w1 = Ok (rs, T1, w1') /\ entries T1 = Ok l1 /\
    vstep T1 o w1' = Ok (r, T2, w2) /\ vstep T1 (counting_op o) (w1', 0) = Ok (r, T2, (w2, n)) /\
    n <= 12 + 7 * (Nat.log2 (length l1) / 4) /\ (forall v, tree_shows T1 v -> n <= call_cost (view_height v) o)
  end.
Proof. exact (bulk_cost c data w). Qed.
Print Assumptions bulk_comparisons.
Example bulk_comparisons_ex :
  match bulk_load_c (A:=nat) (counting2 moody2) (moody_data 140) (0, 0) with
  | Ok (Some T0, (w1, n)) => n = 139 /\
      match vstep T0 (counting_op (VGet (moody 5))) (w1, 0) with Ok (_, _, (_, n)) => n = 7 | _ => False end
  | _ => False
  end /\
  match bulk_load_c (A:=nat) (counting2 moody2) (moody_data 160) (0, 0) with Ok (None, (_, n)) => n = 151 | _ => False end.
Proof. vm_compute. done. Qed.

(** C66: on a tree an ordered program reaches *)
Theorem reachable_comparisons {W K V A} {KO : KeyOps K} {PF : Profile} {OL : OrdLaws K} {AO : AugOps K V A} b (T : tree K V A) l (o : vop W K V) w r T' w' :
  reachable b T l -> vstep T o w = Ok (r, T', w') ->
  exists n, vstep T (counting_op o) (w, 0) = Ok (r, T', (w', n)) /\ n <= 12 + 7 * (Nat.log2 (length l) / 4) /\
    (forall v, tree_shows T v -> n <= call_cost (view_height v) o).
Proof. exact (reachable_cost b T l o w r T' w'). Qed.
Print Assumptions reachable_comparisons.
Example reachable_comparisons_ex :
  reachable (A:=nat) SNew ex_tree ex_list /\
  match vstep (A:=nat) ex_tree (counting_op (VGet (at_key 17))) (0, 0) with Ok (VrVal _, _, (_, n)) => n = 8 | _ => False end.
Proof. split; [by apply ex_reachable|]. vm_compute. done. Qed.
