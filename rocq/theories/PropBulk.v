(** C19-C21: bulk loading. *)
From stdpp Require Import list.
From Coq Require Import ZArith.
From Verif Require Import Base Slots Store Tree Remove Iterators Observe BulkLoad History Spec Contents Augment
  Instances HistTop MapTop ReadTop ShapeTop HistProof Orphan OrphanAny OrphanReach.

(** The examples are computed in the dev profile. *)
Local Existing Instance dev_build.

Local Instance ex_aug : AugOps Z Z nat := count_aug.

(** C19 *)
Theorem bulk_load_contents {K V A} {KO : KeyOps K} {PF : Profile} {OL : OrdLaws K} {AO : AugOps K V A} (data : list (K * V)) :
  key_sorted data ->
  exists (T : tree K V A) l, bulk_load data = Ok T /\ entries T = Ok l /\ t_len T = length l /\ ascending l /\
    (forall x, x ∈ l <-> last_pair data x) /\
    ((N.of_nat (length l) < 2 ^ 64)%N -> reachable (SBulk data) T l).
Proof. exact (bulk_top data). Qed.
Print Assumptions bulk_load_contents.
(** 300 keys, each given twice *)
Definition twice_data : list (Z * Z) := concat (map (fun k => [(k, 7%Z); (k, (10 * k)%Z)]) (zseq 0 300)).
Example bulk_load_contents_ex :
  key_sorted twice_data /\
  match bulk_load (A:=nat) twice_data with
  | Ok T => entries T = Ok (zpairs (zseq 0 300)) /\ t_len T = 300 /\ t_aug T = 300
  | _ => False end.
Proof. split; [|vm_compute; done]. apply zsorted. vm_compute. done. Qed.

(** C20 *)
Theorem from_iter_contents {K V A} {KO : KeyOps K} {PF : Profile} {OL : OrdLaws K} {AO : AugOps K V A} (data : list (K * V)) :
  exists (T : tree K V A) l, from_iter data = Ok T /\ entries T = Ok l /\ t_len T = length l /\ ascending l /\
    (forall x, x ∈ l <-> last_pair data x) /\
    ((N.of_nat (length l) < 2 ^ 64)%N -> reachable (SCollect data) T l).
Proof. exact (collect_top data). Qed.
Print Assumptions from_iter_contents.
Example from_iter_contents_ex :
  match from_iter (A:=nat) (zpairs (rev (zseq 0 150)) ++ [(20, 5)%Z; (3, 4)%Z; (20, 6)%Z]) with
  | Ok T => t_len T = 150 /\
      match get T (probe_key 20%Z), get T (probe_key 3%Z), get T (probe_key 149%Z) with
      | Ok (r1, _), Ok (r2, _), Ok (r3, _) => r1 = Some 6%Z /\ r2 = Some 4%Z /\ r3 = Some 1490%Z
      | _, _, _ => False end
  | _ => False end.
Proof. vm_compute. done. Qed.

(** C21.  Full statement: after loading any data, any later history behaves like
    the ordered map.  Missing: histories with removals on trees where the loader
    left a single node over for the last parent of some layer.  Up to 4160
    distinct keys never do. *)
Theorem bulk_history_partial {K V A} {KO : KeyOps K} {PF : Profile} {OL : OrdLaws K} {AO : AugOps K V A}
    (b : start K V) (ops : list (op K V)) :
  start_ok b -> Forall op_ok ops -> fits (spec_begin b) ops ->
  (Exists is_remove ops -> orphan_free (length (spec_begin b)) \/ length (spec_begin b) <= 4160) ->
  aug_needs_drop (K:=K) (V:=V) (A:=A) = false ->
  exists T, exec (A:=A) b ops = Ok ((spec_exec b ops).1, T) /\ entries T = Ok (spec_exec b ops).2.
Proof. exact (bulk_history_ok b ops). Qed.
Print Assumptions bulk_history_partial.
Example bulk_history_partial_ex :
  let b := SCollect (zpairs (rev (zseq 0 200))) in let ops := zinserts (zseq 100 120) ++ zremoves (zseq 0 180) in
  start_ok b /\ Forall op_ok ops /\ fits (spec_begin b) ops /\ length (spec_begin b) <= 4160 /\
  match exec (A:=nat) b ops with Ok (_, T) => t_len T = 40 /\ t_aug T = 40 | _ => False end.
Proof.
  split; [done|]. split; [apply zops_ok|]. split; [apply fits_short; by vm_compute|].
  split; [apply Nat.leb_le; by vm_compute|]. vm_compute. done.
Qed.

(** 4161 keys fill 66 leaves; the 66th is alone under the second inner node.
    Removing the last key panics. *)
Theorem bulk_remove_panics :
  exists (data : list (Z * Z)) k, key_sorted data /\
    exec (A:=nat) (SBulk data) [ORemove (probe_key k)] = Panic.
Proof.
  exists (zpairs (zseq 0 4161)), 4160%Z. split; [apply zsorted; by vm_compute|]. vm_compute. reflexivity.
Qed.
Print Assumptions bulk_remove_panics.
(** The same for every start that leaves a node over: removing the greatest key
    again and again stops.  Over a leaf it panics in every build, over an inner
    node only a [debug_assert!] stops it.  So the condition of
    [bulk_history_partial] is exact, in both builds. *)
Theorem bulk_remove_always_stops {K V A} {KO : KeyOps K} {PF : Profile} {OL : OrdLaws K} {AO : AugOps K V A} (b : start K V) :
  aug_needs_drop (K:=K) (V:=V) (A:=A) = false ->
  start_ok b -> (N.of_nat (length (spec_begin b)) < 2 ^ 64)%N -> ~ orphan_free (length (spec_begin b)) ->
  exists n, exec (A:=A) b (map (fun x => ORemove (probe_key x.1)) (take n (rev (spec_begin b)))) =
    if decide (((length (spec_begin b) + 63) / 64) mod 65 = 1) then Panic else if dev then Panic else UB.
Proof. exact (fun H => orphan_stops H b). Qed.
Print Assumptions bulk_remove_always_stops.
(** 4181 keys: the last leaf holds 21 entries, the sixth removal panics *)
Example bulk_remove_always_stops_ex :
  let b := SBulk (zpairs (zseq 0 4181)) in
  start_ok b /\ length (spec_begin b) = 4181%nat /\ ~ orphan_free 4181 /\
  match exec (A:=nat) b (zremoves (rev (zseq 4176 5))) with Ok (_, T) => t_len T = 4176%nat | _ => False end /\
  exec (A:=nat) b (zremoves (rev (zseq 4175 6))) = Panic.
Proof.
  split; [apply zsorted; by vm_compute|]. split; [vm_compute; reflexivity|]. split; [|split; vm_compute; reflexivity].
  intros [H|H]; [discriminate H|]. assert ((4181 + 63) / 64 = 66)%nat as E by (vm_compute; reflexivity). rewrite E in H. clear E.
  remember 66%nat as m eqn:Em. destruct H as [|m _ Hm _]; [discriminate Em|]. apply Hm. rewrite Em. reflexivity.
Qed.
(** And nothing worse: after any load, any history gives the answers of the
    ordered map up to a removal of a stored key; such a removal may panic, or be
    undefined in a release build, only if the load left a node over.  A dev build
    never does anything undefined. *)
Theorem bulk_history_safe {K V A} {KO : KeyOps K} {PF : Profile} {OL : OrdLaws K} {AO : AugOps K V A}
    (b : start K V) (ops : list (op K V)) :
  start_ok b -> Forall op_ok ops -> fits (spec_begin b) ops -> drops_ok (A:=A) (spec_begin b) ops ->
  (exists T, exec (A:=A) b ops = Ok ((spec_exec b ops).1, T) /\ entries T = Ok (spec_exec b ops).2) \/
  ~ orphan_free (length (spec_begin b)) /\
  exists ops1 p ops2 T, ops = ops1 ++ ORemove p :: ops2 /\
    exec (A:=A) b ops1 = Ok ((spec_exec b ops1).1, T) /\ entries T = Ok (spec_exec b ops1).2 /\
    spec_get p (spec_exec b ops1).2 <> None /\
    (exec (A:=A) b ops = Panic \/ dev = false /\ exec (A:=A) b ops = UB).
Proof. exact (exec_reach b ops). Qed.
Print Assumptions bulk_history_safe.
(** 4161 keys, a node is left over: inserting next to it and removing there is
    fine, removing elsewhere is fine, without the insertions it panics *)
Example bulk_history_safe_ex :
  let b := SBulk (zpairs (zseq 0 4161)) in let ins := zinserts (zseq 4161 20) in
  start_ok b /\ Forall op_ok (ins ++ zremoves [4160%Z; 5%Z]) /\ drops_ok (A:=nat) (spec_begin b) (ins ++ zremoves [4160%Z; 5%Z]) /\
  match exec (A:=nat) b (ins ++ zremoves [4160%Z; 5%Z]) with Ok (_, T) => t_len T = 4179%nat | _ => False end /\
  exec (A:=nat) b (zinserts [4161%Z] ++ zremoves [5%Z; 4160%Z]) = Panic.
Proof.
  split; [apply zsorted; by vm_compute|]. split; [apply zops_ok|]. split; [by apply drops_none|]. split; vm_compute; reflexivity.
Qed.
(** One removal, on any tree a program can hold: right, or stopped. *)
Theorem remove_right_or_stops {K V A} {KO : KeyOps K} {PF : Profile} {OL : OrdLaws K} {AO : AugOps K V A}
    (b : start K V) (T : tree K V A) l p :
  reachable b T l -> probe_ok p -> drop_ok (A:=A) l ->
  (exists T', remove T p = Ok (spec_get p l, T') /\ reachable b T' (spec_remove p l)) \/
  ~ orphan_free (length (spec_begin b)) /\ spec_get p l <> None /\
  (remove T p = Panic \/ dev = false /\ remove T p = UB).
Proof. exact (reachable_remove b T l p). Qed.
Print Assumptions remove_right_or_stops.
(** 4161 keys, key 5 removed: the node is still left over *)
Definition over_ops : list (op Z Z) := zinserts [] ++ zremoves [5%Z].
Definition over_tree : tree Z Z nat := tree_of (SBulk (zpairs (zseq 0 4161))) over_ops.
Lemma over_reachable : exists l, reachable (SBulk (zpairs (zseq 0 4161))) over_tree l.
Proof.
  eexists. exists over_ops. eexists. split; [|split; [vm_compute; reflexivity|reflexivity]]. split.
  - apply zsorted. by vm_compute.
  - apply zops_ok.
  - apply fits_short. cbn [spec_begin].
    pose proof (spec_load_length (zpairs (zseq 0 4161))) as H.
    assert (N.of_nat (length (zpairs (zseq 0 4161))) = 4161)%N as E by (vm_compute; reflexivity).
    set (n := length (spec_load _)) in *. set (m := length (zpairs _)) in *. clearbody n m. cbn. lia.
  - by apply drops_none.
Qed.
Example remove_right_or_stops_ex :
  (exists l, reachable (SBulk (zpairs (zseq 0 4161))) over_tree l /\ drop_ok (A:=nat) l) /\
  match remove over_tree (probe_key 7%Z) with Ok (r, T) => r = Some 70%Z /\ t_len T = 4159%nat | _ => False end /\
  remove over_tree (probe_key 4160%Z) = Panic.
Proof. split; [destruct over_reachable as [l H]; exists l; split; [done|by left]|]. split; vm_compute; done. Qed.

Theorem collect_remove_refuted :
  exists (data : list (Z * Z)) ops, Forall op_ok ops /\ fits (spec_begin (SCollect data)) ops /\
    exec (A:=nat) (SCollect data) ops = Panic.
Proof.
  exists (zpairs (zseq 0 4161)), (zinserts [] ++ zremoves [4160%Z]). split; [apply zops_ok|].
  split; [|vm_compute; reflexivity]. apply fits_short. cbn [spec_begin].
  pose proof (spec_load_length (zpairs (zseq 0 4161))) as H.
  assert (N.of_nat (length (zpairs (zseq 0 4161))) = 4161)%N as E by (vm_compute; reflexivity).
  set (n := length (spec_load _)) in *. set (m := length (zpairs _)) in *. clearbody n m. cbn. lia.
Qed.
Print Assumptions collect_remove_refuted.
