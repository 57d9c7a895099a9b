(** C02-C04, C10-C12, C42: single calls on a tree a program can hold. *)
From stdpp Require Import list relations.
From Coq Require Import ZArith.
From Verif Require Import Base Slots Store Tree Readers Remove Iterators Observe BulkLoad History Spec Contents Augment
  Instances HistTop MapTop.

(** The examples are computed in the dev profile. *)
Local Existing Instance dev_build.

Local Instance ex_aug : AugOps Z Z nat := count_aug.

(** C02 *)
Theorem insert_effect {K V A} {KO : KeyOps K} {PF : Profile} {OL : OrdLaws K} {AO : AugOps K V A}
    (b : start K V) (T : tree K V A) l k v :
  reachable b T l -> (N.of_nat (S (length l)) < 2 ^ 64)%N ->
  exists r T' l', insert T k v = Ok (r, T') /\ lookup_is (probe_key k) l r /\
    reachable b T' l' /\ insert_is k v l l'.
Proof. exact (insert_effect_ok b T l k v). Qed.
Print Assumptions insert_effect.
Example insert_effect_ex :
  reachable (A:=nat) SNew ex_tree ex_list /\ (N.of_nat (S (length ex_list)) < 2 ^ 64)%N /\
  match insert (A:=nat) ex_tree 180%Z 7%Z with
  | Ok (r, T') => r = Some 1800%Z /\ match get T' (probe_key 180%Z) with Ok (r, _) => r = Some 7%Z | _ => False end
  | _ => False
  end.
Proof. split; [by apply ex_reachable|]. vm_compute. done. Qed.

(** C03 *)
Theorem remove_effect {K V A} {KO : KeyOps K} {PF : Profile} {OL : OrdLaws K} {AO : AugOps K V A}
    (b : start K V) (T : tree K V A) l p :
  reachable b T l -> removal_ok (A:=A) b l -> probe_ok p ->
  exists r T' l', remove T p = Ok (r, T') /\ lookup_is p l r /\
    reachable b T' l' /\ remove_is p l l' /\ (r = None -> l' = l).
Proof. exact (remove_effect_ok b T l p). Qed.
Print Assumptions remove_effect.
Example remove_effect_ex :
  reachable (A:=nat) SNew ex_tree ex_list /\ removal_ok (A:=nat) SNew ex_list /\
  probe_ok (probe_key 180%Z) /\
  match remove (A:=nat) ex_tree (probe_key 180%Z) with
  | Ok (r, T') => r = Some 1800%Z /\ t_len T' = 79
  | _ => False
  end.
Proof.
  split; [by apply ex_reachable|]. split; [split; [by left|by left]|]. split; [apply probe_key_legal|].
  vm_compute. done.
Qed.

(** C04 *)
Theorem len_counts_entries {K V A} {KO : KeyOps K} {PF : Profile} {OL : OrdLaws K} {AO : AugOps K V A}
    (b : start K V) (T : tree K V A) l :
  reachable b T l -> entries T = Ok l /\ t_len T = length l /\ (is_empty T = true <-> l = []).
Proof.
  exact (fun H => conj (proj1 (reachable_entries b T l H)) (reachable_len b T l H)).
Qed.
Print Assumptions len_counts_entries.
Example len_counts_entries_ex :
  reachable (A:=nat) SNew ex_tree ex_list /\ t_len (A:=nat) ex_tree = 80 /\ is_empty (A:=nat) ex_tree = false.
Proof. split; [by apply ex_reachable|]. vm_compute. done. Qed.

(** C10 *)
Theorem first_last_extremes {K V A} {KO : KeyOps K} {PF : Profile} {OL : OrdLaws K} {AO : AugOps K V A}
    (b : start K V) (T : tree K V A) l :
  reachable b T l ->
  exists f z, first T = Ok f /\ least_is l f /\ Tree.last T = Ok z /\ greatest_is l z.
Proof. exact (reachable_ends b T l). Qed.
Print Assumptions first_last_extremes.
Example first_last_extremes_ex :
  reachable (A:=nat) SNew ex_tree ex_list /\
  first (A:=nat) ex_tree = Ok (Some (0, 0)%Z) /\ Tree.last (A:=nat) ex_tree = Ok (Some (199, 1990)%Z).
Proof. split; [by apply ex_reachable|]. vm_compute. done. Qed.

(** C11: one reader, whatever the cache holds *)
Theorem get_any_cache {K V A} {KO : KeyOps K} {PF : Profile} {OL : OrdLaws K} {AO : AugOps K V A}
    (b : start K V) (T : tree K V A) l p c :
  reachable b T l -> probe_ok p ->
  exists r c', get (with_cache T c) p = Ok (r, with_cache T c') /\ lookup_is p l r.
Proof. exact (get_ok_cache b T l p c). Qed.
Print Assumptions get_any_cache.
Example get_any_cache_ex :
  reachable (A:=nat) SNew ex_tree ex_list /\ probe_ok (probe_key 180%Z) /\
  (forall c, c ∈ [None; Some 0; Some 1; Some 2; Some 3; Some 77] ->
    match get (with_cache (A:=nat) ex_tree c) (probe_key 180%Z) with Ok (r, _) => r = Some 1800%Z | _ => False end).
Proof.
  split; [by apply ex_reachable|]. split; [apply probe_key_legal|]. apply Forall_forall. vm_compute.
  repeat constructor.
Qed.

(** C11: any number of readers, steps interleaved in any way *)
Theorem concurrent_gets {K V A} {KO : KeyOps K} {PF : Profile} {OL : OrdLaws K} {AO : AugOps K V A}
    (b : start K V) (T : tree K V A) l w ps seen rds :
  reachable b T l -> Forall probe_ok ps ->
  rtc (readers_step T) ([w], map RdStart ps) (seen, rds) ->
  map rd_probe rds = ps /\
  (forall i p r, rds !! i = Some (RdDone p r) -> exists o, r = Ok o /\ lookup_is p l o) /\
  (forall i rd, rds !! i = Some rd ->
    (exists p r, rd = RdDone p r) \/ exists seen' rd', reader_step T seen rd seen' rd').
Proof. exact (readers_ok b T l w ps seen rds). Qed.
Print Assumptions concurrent_gets.
Example concurrent_gets_ex :
  let p := probe_key 180%Z in let q := probe_key 7%Z in
  reachable (A:=nat) SNew ex_tree ex_list /\ Forall probe_ok [p; q] /\
  exists seen, rtc (readers_step (A:=nat) ex_tree) ([Some 1], map RdStart [p; q])
    (seen, [RdDone p (Ok (Some 1800%Z)); RdDone q (Ok (Some 70%Z))]).
Proof.
  split; [by apply ex_reachable|]. split; [repeat constructor; apply probe_key_legal|].
  assert (exists id1 id2,
    check_cache (t_store (A:=nat) ex_tree) (Some 1) (probe_key 180%Z) = Ok None /\
    check_cache (t_store (A:=nat) ex_tree) (Some 1) (probe_key 7%Z) = Ok None /\
    descend_to_leaf (descend_fuel (t_store (A:=nat) ex_tree)) (t_store ex_tree) (t_root (A:=nat) ex_tree) (probe_key 180%Z) = Ok id1 /\
    descend_to_leaf (descend_fuel (t_store (A:=nat) ex_tree)) (t_store ex_tree) (t_root (A:=nat) ex_tree) (probe_key 7%Z) = Ok id2 /\
    find_in_leaf (t_store (A:=nat) ex_tree) id1 (probe_key 180%Z) = Ok (Some 1800%Z) /\
    find_in_leaf (t_store (A:=nat) ex_tree) id2 (probe_key 7%Z) = Ok (Some 70%Z)) as (i1 & i2 & C1 & C2 & D1 & D2 & F1 & F2).
  { eexists _, _. split_and!; vm_compute; reflexivity. }
  eexists. generalize dependent (ex_tree (A:=nat)). intros T C1 C2 D1 D2 F1 F2.
  eapply rtc_l. { eapply (rds_step T _ _ 0 _ (RdStart (probe_key 180%Z))); [done|]. eapply (rd_miss T _ _ (Some 1)); [by left|done]. }
  eapply rtc_l. { eapply (rds_step T _ _ 1 _ (RdStart (probe_key 7%Z))); [done|]. eapply (rd_miss T _ _ (Some 1)); [by left|done]. }
  eapply rtc_l. { eapply (rds_step T _ _ 1 _ (RdMiss (probe_key 7%Z))); [done|]. by eapply (rd_descend T). }
  eapply rtc_l. { eapply (rds_step T _ _ 0 _ (RdMiss (probe_key 180%Z))); [done|]. by eapply (rd_descend T). }
  eapply rtc_l. { eapply (rds_step T _ _ 0 _ (RdLeaf (probe_key 180%Z) i1)); [done|]. apply (rd_read T). }
  eapply rtc_l. { eapply (rds_step T _ _ 1 _ (RdLeaf (probe_key 7%Z) i2)); [done|]. apply (rd_read T). }
  rewrite F1, F2. simpl. apply rtc_refl.
Qed.

(** C12 *)
Theorem get_mut_effect {K V A} {KO : KeyOps K} {PF : Profile} {OL : OrdLaws K} {AO : AugOps K V A}
    (b : start K V) (T : tree K V A) l p f :
  reachable b T l -> probe_ok p ->
  exists r T' l', get_mut T p f = Ok (r, T') /\ lookup_is p l r /\
    reachable b T' l' /\ update_is p f l l' /\ map fst l' = map fst l.
Proof. exact (get_mut_effect_ok b T l p f). Qed.
Print Assumptions get_mut_effect.
Example get_mut_effect_ex :
  reachable (A:=nat) SNew ex_tree ex_list /\ probe_ok (probe_key 180%Z) /\
  match get_mut (A:=nat) ex_tree (probe_key 180%Z) (Z.add 5) with
  | Ok (r, T') => r = Some 1800%Z /\ match get T' (probe_key 180%Z) with Ok (r, _) => r = Some 1805%Z | _ => False end
  | _ => False
  end.
Proof. split; [by apply ex_reachable|]. split; [apply probe_key_legal|]. vm_compute. done. Qed.

(** C42 *)
Theorem borrowed_lookups {K V A} {KO : KeyOps K} {PF : Profile} {OL : OrdLaws K} {AO : AugOps K V A}
    (b : start K V) (T : tree K V A) l p k f :
  reachable b T l -> probe_ok p -> p k = Eq ->
  (exists r T1 T2, get T p = Ok (r, T1) /\ get T (probe_key k) = Ok (r, T2)) /\
  (exists r T1 T2 l', get_mut T p f = Ok (r, T1) /\ get_mut T (probe_key k) f = Ok (r, T2) /\
    reachable b T1 l' /\ reachable b T2 l') /\
  (removal_ok (A:=A) b l -> exists r T1 T2 l', remove T p = Ok (r, T1) /\ remove T (probe_key k) = Ok (r, T2) /\
    reachable b T1 l' /\ reachable b T2 l').
Proof. exact (borrowed_ok b T l p k f). Qed.
Print Assumptions borrowed_lookups.
(** lookups by a borrowed form of the key *)
Definition form_probe (q : Z) : probe Z := fun x => Z.compare (3 * x + 1)%Z q.
Lemma form_probe_ok q : probe_ok (form_probe q).
Proof.
  split; unfold form_probe, kcmp, z_key; intros x y.
  - rewrite !Z.compare_lt_iff, Z.compare_le_iff. lia.
  - intros ->%Z.compare_eq. done.
Qed.
Example borrowed_lookups_ex :
  reachable (A:=nat) SNew ex_tree ex_list /\ probe_ok (form_probe 541) /\ form_probe 541 180%Z = Eq /\
  removal_ok (A:=nat) SNew ex_list /\
  match get (A:=nat) ex_tree (form_probe 541) with Ok (r, _) => r = Some 1800%Z | _ => False end.
Proof.
  split; [by apply ex_reachable|]. split; [apply form_probe_ok|]. split; [done|].
  split; [split; by left|]. vm_compute. done.
Qed.
