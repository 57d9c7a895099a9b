(** C45, C46, C47, C48: comparisons that are not orders.  [KeyOps] fixes only that
    the comparison is a function; no theorem here assumes [OrdLaws]. *)
From stdpp Require Import list relations.
From Coq Require Import ZArith.
From Verif Require Import Base Slots Store Tree Readers Remove Iterators Observe Cursor BulkLoad History Spec AnySpec
  AnyHist Augment AnyProof OrphanAny.

(** The examples are computed in the dev profile. *)
Local Existing Instance dev_build.

(** C45 *)
Theorem any_order_history {K V A} {KO : KeyOps K} {PF : Profile} {AO : AugOps K V A}
    (b : start K V) l0 (ops : list (op K V)) :
  any_legal (A:=A) b l0 ops ->
  exists rs (T : tree K V A) l, exec b ops = Ok (rs, T) /\ runs_any l0 ops rs l /\ entries T = Ok l.
Proof. exact (any_history_ok b l0 ops). Qed.
Print Assumptions any_order_history.

(** "Less" around a wheel of seven: neither transitive nor antisymmetric. *)
Local Instance wheel : KeyOps Z := fun x y =>
  if Z.eqb x y then Eq else if Z.ltb ((x - y) mod 7) 3 then Lt else Gt.
Local Instance ex_aug : AugOps Z Z nat := count_aug.
Definition wheel_keys (n : nat) : list Z := map (fun i => (Z.of_nat i * 37) mod 101)%Z (seq 0 n).
Definition wheel_ops : list (op Z Z) :=
  map (fun k => OInsert k (10 * k)%Z) (wheel_keys 150) ++ map (fun k => ORemove (probe_key k)) (wheel_keys 120) ++
  [OLen; OGet (fun _ => Gt); OGetMut (fun x => Z.compare (x mod 5) 2) Z.succ; OIterRev; OLast].
Definition wheel_bulk : list (Z * Z) := map (fun k => (k, k)) (wheel_keys 200).
Example any_order_history_ex :
  any_legal (A:=nat) SNew [] wheel_ops /\
  any_legal (A:=nat) (SBulk wheel_bulk) wheel_bulk wheel_ops /\
  (exists x y z, kcmp x y = Lt /\ kcmp y z = Lt /\ kcmp x z = Gt) /\
  match exec (A:=nat) SNew wheel_ops with
  | Ok (rs, T) => nth_error rs 270 = Some (RNum 116) /\ match entries T with Ok l => length l = 116 | _ => False end
  | _ => False
  end.
Proof.
  split_and!.
  - split; [done|vm_compute; done|by left|by left].
  - split; [vm_compute; reflexivity|vm_compute; done| |by left].
    intros _. right. change ((length wheel_bulk + 63) / 64) with 4. apply no_orphan_more; [lia|done|constructor].
  - exists 3%Z, 1%Z, 0%Z. done.
  - vm_compute. done.
Qed.

(** The same without the condition on the size of the load: up to a removal that
    panics, or is undefined in a release build, at a node the load left over (C21).
    A dev build never does anything undefined, whatever the comparison. *)
Theorem any_order_bulk_safe {K V A} {KO : KeyOps K} {PF : Profile} {AO : AugOps K V A}
    (b : start K V) l0 (ops : list (op K V)) :
  aug_needs_drop (K:=K) (V:=V) (A:=A) = false ->
  start_any b = Some l0 -> (N.of_nat (length l0 + inserts ops) < 2 ^ 64)%N ->
  (exists rs (T : tree K V A) l, exec b ops = Ok (rs, T) /\ runs_any l0 ops rs l /\ entries T = Ok l) \/
  ~ orphan_free (length l0) /\
  exists ops1 p ops2 rs (T : tree K V A) l, ops = ops1 ++ ORemove p :: ops2 /\
    exec b ops1 = Ok (rs, T) /\ runs_any l0 ops1 rs l /\ entries T = Ok l /\
    (exec (A:=A) b ops = Panic \/ dev = false /\ exec (A:=A) b ops = UB).
Proof. exact (fun H => exec_any_gen H b l0 ops). Qed.
Print Assumptions any_order_bulk_safe.
(** 4161 items, none equal to its neighbour: removing through a comparison that
    always goes right and then says equal panics *)
Definition wheel_many : list (Z * Z) := map (fun i => (Z.of_nat (i mod 7), Z.of_nat i)) (seq 0 4161).
Example any_order_bulk_safe_ex :
  start_any (SBulk wheel_many) = Some wheel_many /\ length wheel_many = 4161%nat /\
  exec (A:=nat) (SBulk wheel_many) [ORemove (fun _ => Eq); ORemove (fun _ => Eq)] = Panic /\
  match exec (A:=nat) (SBulk wheel_many) [ORemove (fun _ => Gt); ORemove (fun x => Z.compare x 0); ORemove (fun x => Z.compare x 1)] with
  | Ok (_, T) => t_len T = 4159%nat | _ => False end.
Proof. split; [vm_compute; reflexivity|]. split; [vm_compute; reflexivity|]. split; vm_compute; reflexivity. Qed.

(** C46: cursors, made at any earlier time or out of thin air *)
Theorem any_order_cursors {K V A} {KO : KeyOps K} {PF : Profile} {AO : AugOps K V A}
    (b : start K V) (T : tree K V A) l :
  any_reachable b T l ->
  (forall c : cursor K,
    (exists r, cursor_next_with_value T c = Ok r /\ (forall c' v, r = Some (c', v) -> (c_key c', v) ∈ l)) /\
    (exists r, cursor_prev_with_value T c = Ok r /\ (forall c' v, r = Some (c', v) -> (c_key c', v) ∈ l)) /\
    (exists o, cursor_value T c = Ok o /\ get_any (probe_key (c_key c)) l o)) /\
  (forall k, exists c o, get_cursor T k = Ok (c, o) /\ c_key c = k /\ get_any (probe_key k) l o).
Proof. exact (any_reads_ok b T l). Qed.
Print Assumptions any_order_cursors.

Definition wheel_tree : tree Z Z nat := match exec SNew wheel_ops with Ok (_, T) => T | _ => tree_new end.
Definition wheel_list : list (Z * Z) := match entries wheel_tree with Ok l => l | _ => [] end.
Example any_order_cursors_ex :
  any_reachable (A:=nat) SNew wheel_tree wheel_list /\ length wheel_list = 116 /\
  exists c' v, cursor_next_with_value wheel_tree (mkCursor 3%Z 0 7) = Ok (Some (c', v)).
Proof.
  split.
  { exists [], wheel_ops. eexists. split; [split; [done|vm_compute; done|by left]|].
    split; vm_compute; reflexivity. }
  split; [vm_compute; done|]. eexists _, _. vm_compute. done.
Qed.

(** C47: readers that share the tree *)
Theorem any_order_readers {K V A} {KO : KeyOps K} {PF : Profile} {AO : AugOps K V A}
    (b : start K V) (T : tree K V A) l w ps seen rds :
  any_reachable b T l ->
  rtc (readers_step T) ([w], map RdStart ps) (seen, rds) ->
  map rd_probe rds = ps /\
  (forall i p r, rds !! i = Some (RdDone p r) -> exists o, r = Ok o /\ get_any p l o) /\
  (forall i rd, rds !! i = Some rd ->
    (exists p r, rd = RdDone p r) \/ exists seen' rd', reader_step T seen rd seen' rd').
Proof. exact (any_readers_ok b T l w ps seen rds). Qed.
Print Assumptions any_order_readers.
Example any_order_readers_ex :
  let p : probe Z := probe_key 7%Z in
  any_reachable (A:=nat) SNew wheel_tree wheel_list /\
  exists r seen, rtc (readers_step wheel_tree) ([Some 1], map RdStart [p]) (seen, [RdDone p r]).
Proof.
  split; [apply any_order_cursors_ex|].
  assert (exists c id, check_cache (t_store wheel_tree) None (probe_key 7%Z) = Ok None /\
    descend_to_leaf (descend_fuel (t_store wheel_tree)) (t_store wheel_tree) (t_root wheel_tree) (probe_key 7%Z) = Ok id /\
    check_cache (t_store wheel_tree) (Some 1) (probe_key 7%Z) = Ok c) as (c & id & _ & D & C).
  { eexists _, _. split_and!; vm_compute; reflexivity. }
  generalize dependent wheel_tree. intros T D C. destruct c as [i|]; eexists _, _.
  - eapply rtc_l. { eapply (rds_step T _ _ 0 _ (RdStart (probe_key 7%Z))); [done|]. eapply (rd_hit T _ _ (Some 1)); [by left|done]. }
    eapply rtc_l. { eapply (rds_step T _ _ 0 _ (RdLeaf (probe_key 7%Z) i)); [done|]. apply (rd_read T). }
    apply rtc_refl.
  - eapply rtc_l. { eapply (rds_step T _ _ 0 _ (RdStart (probe_key 7%Z))); [done|]. eapply (rd_miss T _ _ (Some 1)); [by left|done]. }
    eapply rtc_l. { eapply (rds_step T _ _ 0 _ (RdMiss (probe_key 7%Z))); [done|]. by eapply (rd_descend T). }
    eapply rtc_l. { eapply (rds_step T _ _ 0 _ (RdLeaf (probe_key 7%Z) id)); [done|]. apply (rd_read T). }
    apply rtc_refl.
Qed.

(** C48: [into_iter] from both ends, dropped early, and drop of the tree *)
Theorem any_order_owned {K V A} {KO : KeyOps K} {PF : Profile} {AO : AugOps K V A}
    (b : start K V) (T : tree K V A) l :
  any_reachable b T l ->
  tree_drop T = Ok l /\
  exists it, into_iter_new T = Ok it /\ ii_len it = length l /\
    forall ends, exists it', into_drive it ends = Ok ((deque_drive l ends).1, it') /\
      ii_len it' = length (deque_drive l ends).2 /\ into_iter_drop it' = Ok (deque_drive l ends).2.
Proof. exact (any_owned_ok b T l). Qed.
Print Assumptions any_order_owned.
Example any_order_owned_ex :
  any_reachable (A:=nat) SNew wheel_tree wheel_list /\ tree_drop wheel_tree = Ok wheel_list /\
  match into_iter_new wheel_tree with
  | Ok it => match into_drive it [true; false; true] with
             | Ok (rs, it') => map snd rs = [115; 114; 113] /\
                 into_iter_drop it' = Ok (take 113 (drop 2 wheel_list))
             | _ => False end
  | _ => False
  end.
Proof. split; [apply any_order_cursors_ex|]. split; vm_compute; done. Qed.
