(** C61: keys whose comparison is arbitrary code *)
From stdpp Require Import list.
From Coq Require Import ZArith.
From Verif Require Import Base Slots LeafNode Store Tree Remove Iterators Observe Cursor BulkLoad Spec Augment Volatile VolatileSpec
  VolatileProof VolatileLink OrphanVolatile.

(** The examples are computed in the dev profile. *)
Local Existing Instance dev_build.

(** C61: every program on a new map; each call brings its own comparison *)
Theorem any_code_program {W K V A} {AO : AugOps K V A} {PF : Profile} (ops : list (vop W K V)) w :
  vlegal (A:=A) 0 ops ->
  exists rs (T : tree K V A) w' l, vrun tree_new ops w = Ok (rs, T, w') /\ vruns [] ops rs l /\
    entries T = Ok l /\ t_len T = length l /\ tree_drop T = Ok l.
Proof. exact (new_program ops w). Qed.
Print Assumptions any_code_program.

(** A comparison that counts its calls, answers by the count and panics at every 97th. *)
Definition moody (k : Z) : code nat Z := fun w x =>
  (if Nat.eqb (w mod 97) 96 then None
   else Some (match w mod 11 with 3 => Eq | 1 | 4 | 5 | 8 => Lt | 10 => Z.compare x k | _ => Gt end), S w).
Local Instance ex_aug : AugOps Z Z nat := count_aug.
Definition moody_ops : list (vop nat Z Z) :=
  map (fun k => VInsert (moody k) k (10 * k)%Z) (map Z.of_nat (seq 0 300)) ++
  map (fun k => VRemove (moody k)) (map Z.of_nat (seq 0 150)) ++
  [VLen; VGet (moody 5); VGetMut (moody 7) Z.succ; VNext (moody 3) (mkCursor 3%Z 0 1); VPrev (moody 3) (mkCursor 3%Z 1 0);
   VValue (moody 3) (mkCursor 3%Z 1 2); VCursor (moody 4) 4%Z; VIter; VIterRev; VFirst; VLast; VClone].
Definition threw (r : vres Z Z) : bool := match r with VrThrew => true | _ => false end.
Example any_code_program_ex :
  vlegal (A:=nat) 0 moody_ops /\
  match vrun (A:=nat) tree_new moody_ops 0 with
  | Ok (rs, T, w) => length (List.filter threw rs) = 24 /\ t_len T = 91 /\ w = 2343 | _ => False end.
Proof.
  split; [split; [vm_compute; done|by left|by left]|].
  vm_compute. done.
Qed.

(** C61: the same after a bulk load with such a comparison *)
Theorem any_code_bulk_load {W K V A} {AO : AugOps K V A} {PF : Profile} (c : code2 W K) (data : list (K * V)) w :
  exists r w1, bulk_load_c c data w = Ok (r, w1) /\
  match r with
  | None => panics2 c
  | Some T0 => exists l0, entries T0 = Ok l0 /\ thinned data l0 /\
      forall ops : list (vop W K V), vlegal (A:=A) (length l0) ops ->
      exists rs T w' l, vrun T0 ops w1 = Ok (rs, T, w') /\ vruns l0 ops rs l /\
        entries T = Ok l /\ t_len T = length l /\ tree_drop T = Ok l
  end.
Proof. exact (bulk_program c data w). Qed.
Print Assumptions any_code_bulk_load.

Definition moody2 : code2 nat Z := fun w x y => (if Nat.eqb w 150 then None else Some (if Nat.eqb (w mod 4) 0 then Eq else Gt), S w).
Definition moody_data (n : nat) : list (Z * Z) := map (fun i => (Z.of_nat (i * 37 mod 50), Z.of_nat i)) (seq 0 n).
Example any_code_bulk_load_ex :
  (exists T l, bulk_load_c (A:=nat) moody2 (moody_data 140) 0 = Ok (Some T, 139) /\ entries T = Ok l /\ length l = 105) /\
  bulk_load_c (A:=nat) moody2 (moody_data 160) 0 = Ok (None, 151).
Proof.
  split; [|vm_compute; done].
  destruct (bulk_load_c (A:=nat) moody2 (moody_data 140) 0) as [[[T|] w]| | | |] eqn:E; vm_compute in E; try discriminate.
  injection E as <- <-. eexists _, _. split; [done|]. split; vm_compute; reflexivity.
Qed.

(** The same without the condition on the size of the load: up to a removal that
    panics, or is undefined in a release build, at a node the load left over (C21). *)
Theorem any_code_bulk_safe {W K V A} {AO : AugOps K V A} {PF : Profile} (c : code2 W K) (data : list (K * V)) w :
  aug_needs_drop (K:=K) (V:=V) (A:=A) = false ->
  exists r w1, bulk_load_c c data w = Ok (r, w1) /\
  match r with
  | None => panics2 c
  | Some T0 => exists l0, entries T0 = Ok l0 /\ thinned data l0 /\
      forall ops : list (vop W K V), (N.of_nat (length l0 + vinserts ops) < 2 ^ 64)%N ->
      (exists rs (T : tree K V A) w' l, vrun T0 ops w1 = Ok (rs, T, w') /\ vruns l0 ops rs l /\
        entries T = Ok l /\ t_len T = length l /\ tree_drop T = Ok l) \/
      ~ orphan_free (length l0) /\
      exists ops1 p ops2 rs T w' l, ops = ops1 ++ VRemove p :: ops2 /\
        vrun T0 ops1 w1 = Ok (rs, T, w') /\ vruns l0 ops1 rs l /\
        entries T = Ok l /\ t_len T = length l /\ tree_drop T = Ok l /\
        (vrun T0 ops w1 = Panic \/ dev = false /\ vrun T0 ops w1 = UB)
  end.
Proof. exact (bulk_program_gen c data w). Qed.
Print Assumptions any_code_bulk_safe.
(** 5548 items of which the comparison calls every fourth pair equal: 4161 are
    kept, and a comparison that goes right and then says equal makes the removal panic *)
Definition moody3 : code2 nat Z := fun w x y => (Some (if Nat.eqb (w mod 4) 1 then Eq else Gt), S w).
Definition late_eq : code nat Z := fun w x => (Some (if Nat.eqb w 0 then Lt else Eq), S w).
Example any_code_bulk_safe_ex :
  match bulk_load_c (A:=nat) moody3 (moody_data 50 ++ concat (repeat (moody_data 400) 13) ++ moody_data 298) 0 with
  | Ok (Some T0, w1) => t_len T0 = 4161%nat /\
      vrun T0 [VLen; VRemove late_eq; VLen] 0 = Panic /\
      match vrun T0 [VRemove (fun w x => (None, w)); VRemove (fun w x => (Some Gt, w)); VLen] 0 with
      | Ok (rs, T, _) => rs = [VrThrew; VrVal None; VrNum 4161] | _ => False end
  | _ => False end.
Proof. vm_compute. repeat split. Qed.

(** C61: with a comparison that only compares, these are the operations of the other theorems *)
Theorem pure_code_is_the_tree {W K V A} {KO : KeyOps K} {PF : Profile} {AO : AugOps K V A} (T : tree K V A) (w : W) :
  (forall k v, insert_c T (pure (probe_key k)) k v w = (let! '(r, T') := insert T k v in Ok (Some r, T', w))) /\
  (forall p, remove_c T (pure p) w = (let! '(r, T') := remove T p in Ok (Some r, T', w))) /\
  (forall p, get_c T (pure p) w = (let! '(r, T') := get T p in Ok (Some r, T', w))) /\
  (forall p f, get_mut_c T (pure p) f w = (let! '(r, T') := get_mut T p f in Ok (Some r, T', w))) /\
  (forall x, cursor_next_c T (pure (probe_key (c_key x))) x w = (let! r := cursor_next_with_value T x in Ok (Some r, w))) /\
  (forall x, cursor_prev_c T (pure (probe_key (c_key x))) x w = (let! r := cursor_prev_with_value T x in Ok (Some r, w))) /\
  (forall x, cursor_value_c T (pure (probe_key (c_key x))) x w = (let! r := cursor_value T x in Ok (Some r, w))) /\
  (forall k, get_cursor_c T (pure (probe_key k)) k w = (let! r := get_cursor T k in Ok (Some r, w))) /\
  (forall data : list (K * V), bulk_load_c (A:=A) (pure2 kcmp) data w = (let! r := bulk_load data in Ok (Some r, w))).
Proof.
  split_and!; intros.
  - apply insert_agrees.
  - apply remove_agrees.
  - apply get_agrees.
  - apply get_mut_agrees.
  - apply next_agrees.
  - apply prev_agrees.
  - apply cursor_value_agrees.
  - apply get_cursor_agrees.
  - apply bulk_load_agrees.
Qed.
Print Assumptions pure_code_is_the_tree.

(** The comparison matters: the same call finds the key or does not. *)
Definition five : tree Z Z nat :=
  match vrun (W:=nat) tree_new (map (fun k => VInsert (pure (fun x => Z.compare x k)) k (10 * k)%Z) [1; 2; 3; 4; 5]%Z) 0 with
  | Ok (_, T, _) => T | _ => tree_new end.
Example pure_code_is_the_tree_ex :
  match get_c five (pure (fun x => Z.compare x 4)) 0 with Ok (r, _, _) => r = Some (Some 40%Z) | _ => False end /\
  match get_c five (fun w _ => (Some Gt, w)) 0 with Ok (r, _, _) => r = Some None | _ => False end /\
  match get_c five (fun w _ => (None, S w)) 0 with Ok (r, _, w) => r = None /\ w = 1 | _ => False end.
Proof. vm_compute. done. Qed.
