(** C13-C17: cursors.  A cursor is a key with a leaf and an offset hint; the
    theorems hold for every key and hint, so for cursors made at any earlier time. *)
From stdpp Require Import list.
From Coq Require Import ZArith.
From Verif Require Import Base Slots Store Tree Remove Iterators Observe Cursor BulkLoad History Spec Contents Augment
  Instances HistTop HistProof MapTop ReadTop EdgeProof.

(** The examples are computed in the dev profile. *)
Local Existing Instance dev_build.

Local Instance ex_aug : AugOps Z Z nat := count_aug.

(** C13 *)
Theorem cursor_next_above {K V A} {KO : KeyOps K} {PF : Profile} {OL : OrdLaws K} {AO : AugOps K V A}
    (b : start K V) (T : tree K V A) l c :
  reachable b T l ->
  exists r, cursor_next_with_value T c = Ok r /\
    above_is (c_key c) l ((fun cv => (c_key cv.1, cv.2)) <$> r).
Proof. exact (cursor_next_top b T l c). Qed.
Print Assumptions cursor_next_above.
Example cursor_next_above_ex :
  reachable (A:=nat) SNew ex_tree ex_list /\
  (forall c, c ∈ [mkCursor 49%Z 0 49; mkCursor 49%Z 7 3; mkCursor 100%Z 1 0] ->
    match cursor_next_with_value (A:=nat) ex_tree c with
    | Ok (Some (c', v)) => c_key c' = 170%Z /\ v = 1700%Z
    | _ => False end).
Proof. split; [by apply ex_reachable|]. apply Forall_forall. vm_compute. repeat constructor. Qed.

(** C14 *)
Theorem cursor_prev_below {K V A} {KO : KeyOps K} {PF : Profile} {OL : OrdLaws K} {AO : AugOps K V A}
    (b : start K V) (T : tree K V A) l c :
  reachable b T l ->
  exists r, cursor_prev_with_value T c = Ok r /\
    below_is (c_key c) l ((fun cv => (c_key cv.1, cv.2)) <$> r).
Proof. exact (cursor_prev_top b T l c). Qed.
Print Assumptions cursor_prev_below.
Example cursor_prev_below_ex :
  reachable (A:=nat) SNew ex_tree ex_list /\
  (forall c, c ∈ [mkCursor 170%Z 0 49; mkCursor 170%Z 7 3; mkCursor 100%Z 1 0] ->
    match cursor_prev_with_value (A:=nat) ex_tree c with
    | Ok (Some (c', v)) => c_key c' = 49%Z /\ v = 490%Z
    | _ => False end).
Proof. split; [by apply ex_reachable|]. apply Forall_forall. vm_compute. repeat constructor. Qed.

(** C15 *)
Theorem cursor_value_current {K V A} {KO : KeyOps K} {PF : Profile} {OL : OrdLaws K} {AO : AugOps K V A}
    (b : start K V) (T : tree K V A) l c :
  reachable b T l ->
  exists r, cursor_value T c = Ok r /\ lookup_is (probe_key (c_key c)) l r /\
    cursor_exists T c = Ok (match r with Some _ => true | None => false end).
Proof. exact (cursor_value_top b T l c). Qed.
Print Assumptions cursor_value_current.
Example cursor_value_current_ex :
  reachable (A:=nat) SNew ex_tree ex_list /\
  cursor_value (A:=nat) ex_tree (mkCursor 180%Z 9 9) = Ok (Some 1800%Z) /\
  cursor_exists (A:=nat) ex_tree (mkCursor 100%Z 0 0) = Ok false.
Proof. split; [by apply ex_reachable|]. vm_compute. done. Qed.

(** C16.  Full statement: also on an empty tree, where the answer is [None]. *)
Theorem cursor_ends_partial {K V A} {KO : KeyOps K} {PF : Profile} {OL : OrdLaws K} {AO : AugOps K V A}
    (b : start K V) (T : tree K V A) l :
  reachable b T l -> l <> [] ->
  exists c v d w, cursor_first_with_value T = Ok (Some (c, v)) /\ least_is l (Some (c_key c, v)) /\
    cursor_last_with_value T = Ok (Some (d, w)) /\ greatest_is l (Some (c_key d, w)) /\
    cursor_first T = Ok (Some c).
Proof. exact (cursor_ends_top b T l). Qed.
Print Assumptions cursor_ends_partial.
Example cursor_ends_partial_ex :
  reachable (A:=nat) SNew ex_tree ex_list /\ ex_list <> [] /\
  match cursor_first_with_value (A:=nat) ex_tree, cursor_last_with_value (A:=nat) ex_tree with
  | Ok (Some (c, v)), Ok (Some (d, w)) => (c_key c, v) = (0, 0)%Z /\ (c_key d, w) = (199, 1990)%Z
  | _, _ => False end.
Proof. split; [by apply ex_reachable|]. split; [done|]. vm_compute. done. Qed.

(** On an empty tree [cursor_first] reads an uninitialised slot and
    [Cursor::last] subtracts one from zero. *)
Theorem cursor_ends_refuted :
  exists T : tree Z Z nat, reachable SNew T [] /\
    cursor_first T = UB /\ cursor_first_with_value T = UB /\ cursor_last_with_value T = (if dev then Panic else UB).
Proof.
  exists tree_new. split; [apply new_reachable|]. vm_compute. done.
Qed.
Print Assumptions cursor_ends_refuted.

(** C16: on every empty tree it is so *)
Theorem cursor_ends_exact {K V A} {KO : KeyOps K} {PF : Profile} {OL : OrdLaws K} {AO : AugOps K V A} (b : start K V) (T : tree K V A) :
  reachable b T [] ->
  cursor_first T = UB /\ cursor_first_with_value T = UB /\ cursor_last_with_value T = (if dev then Panic else UB).
Proof. exact (cursor_empty b T). Qed.
Print Assumptions cursor_ends_exact.
(** a tree emptied by removals *)
Definition emptied_ops : list (op Z Z) :=
  map (fun k => OInsert k k) (map Z.of_nat (seq 0 130)) ++ map (fun k => ORemove (probe_key k)) (map Z.of_nat (seq 0 130)).
Definition emptied : tree Z Z nat := match exec (A:=nat) SNew emptied_ops with Ok (_, T) => T | _ => tree_new end.
Example cursor_ends_exact_ex : reachable (A:=nat) SNew emptied [] /\ t_len emptied = 0 /\ length (leaves (t_store emptied)) = 4.
Proof.
  assert (legal (A:=nat) SNew emptied_ops) as Hl.
  { split; [done| | | |by apply drops_none].
    - unfold emptied_ops. apply Forall_app. split; apply Forall_map, Forall_forall; [done|]. intros x _. apply probe_key_legal.
    - apply fits_short. vm_compute. reflexivity.
    - by left. }
  split.
  { destruct (history_ok SNew emptied_ops Hl) as (T & E & _). unfold emptied. rewrite E.
    exists emptied_ops, (spec_exec SNew emptied_ops).1. split; [by apply legal_proper|]. split; [exact E|]. vm_compute. reflexivity. }
  clear. split; vm_compute; reflexivity.
Qed.

(** C17 *)
Theorem get_cursor_value {K V A} {KO : KeyOps K} {PF : Profile} {OL : OrdLaws K} {AO : AugOps K V A}
    (b : start K V) (T : tree K V A) l k :
  reachable b T l ->
  exists c r, get_cursor T k = Ok (c, r) /\ c_key c = k /\ lookup_is (probe_key k) l r.
Proof. exact (get_cursor_top b T l k). Qed.
Print Assumptions get_cursor_value.
Example get_cursor_value_ex :
  reachable (A:=nat) SNew ex_tree ex_list /\
  match get_cursor (A:=nat) ex_tree 180%Z, get_cursor (A:=nat) ex_tree 100%Z with
  | Ok (c, r), Ok (d, s) => c_key c = 180%Z /\ r = Some 1800%Z /\ c_key d = 100%Z /\ s = None
  | _, _ => False end.
Proof. split; [by apply ex_reachable|]. vm_compute. done. Qed.
