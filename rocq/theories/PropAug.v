(** C22-C27: the [Count] augmentation, and user augmentations staying in sync. *)
From stdpp Require Import list.
From Coq Require Import ZArith.
From Verif Require Import Base Slots Store Tree Remove Iterators Observe BulkLoad History Spec Contents Augment AugSpec
  Instances HistTop HistProof ShapeTop CountProof OrphanReach.

(** The examples are computed in the dev profile. *)
Local Existing Instance dev_build.

Section CountTheorems.
Context {K V : Type} {KO : KeyOps K} {PF : Profile} {OL : OrdLaws K}.
Local Instance aug_is_count : AugOps K V nat := count_aug.
Local Instance search_by_count : SearchOps K V nat nat := count_search.
Local Instance rank_by_count : RankOps K V nat nat := count_rank.

(** C22: [root_augmentation()] is the number of entries. *)
Theorem count_root_is_len b (T : tree K V nat) l :
  reachable b T l -> t_aug T = length l /\ t_aug T = t_len T.
Proof.
  intros Hr. rewrite (count_root b T l Hr). split; [done|]. symmetry. apply (MapTop.reachable_len b T l Hr).
Qed.

(** C23: [get_by_augmentation(i)] is the [i]-th entry in key order. *)
Theorem count_get_nth b (T : tree K V nat) l i :
  reachable b T l -> get_by_augmentation T i = Ok (l !! i).
Proof. exact (count_get_ok b T l i). Qed.

(** C24: the rank of a key is the number of smaller keys; [Ok] exactly when the
    key is present. *)
Theorem count_rank_smaller b (T : tree K V nat) l k :
  reachable b T l ->
  rank_by_augmentation T k = Ok (match spec_get (probe_key k) l with
    | Some _ => ROk (spec_rank k l) | None => RErr (spec_rank k l) end).
Proof. exact (count_rank_ok b T l k). Qed.

(** C25: [remove_by_augmentation(i)] removes and returns the [i]-th entry. *)
Theorem count_remove_nth b (T : tree K V nat) l i :
  reachable b T l -> orphan_free (length (spec_begin b)) ->
  exists T', remove_by_augmentation T i = Ok (l !! i, T') /\ reachable b T' (delete i l).
Proof. exact (count_remove_ok b T l i). Qed.

(** After a load that leaves a node over, it may stop instead, as in C21. *)
Theorem count_remove_or_stops b (T : tree K V nat) l i :
  reachable b T l ->
  (exists T', remove_by_augmentation T i = Ok (l !! i, T') /\ reachable b T' (delete i l)) \/
  ~ orphan_free (length (spec_begin b)) /\ i < length l /\
  (remove_by_augmentation T i = Panic \/ dev = false /\ remove_by_augmentation T i = UB).
Proof. exact (count_remove_gen b T l i). Qed.

(** C26: [get_mut_by_augmentation(i)] gives access to the value of the [i]-th
    entry; writing through it changes that value only. *)
Theorem count_get_mut_nth b (T : tree K V nat) l i f :
  reachable b T l ->
  exists T', get_mut_by_augmentation T i f = Ok (snd <$> l !! i, T') /\
    reachable b T' (alter (fun kv => (kv.1, f kv.2)) i l).
Proof. exact (count_get_mut_ok b T l i f). Qed.
End CountTheorems.
Print Assumptions count_root_is_len.
Print Assumptions count_get_nth.
Print Assumptions count_rank_smaller.
Print Assumptions count_remove_nth.
Print Assumptions count_remove_or_stops.
Print Assumptions count_get_mut_nth.

Section CountExamples.
Local Instance ex_count : AugOps Z Z nat := count_aug.
Local Instance ex_count_search : SearchOps Z Z nat nat := count_search.
Local Instance ex_count_rank : RankOps Z Z nat nat := count_rank.

Example count_root_is_len_ex : reachable (A:=nat) SNew ex_tree ex_list /\ t_aug (A:=nat) ex_tree = 80.
Proof. split; [by apply ex_reachable|vm_compute; done]. Qed.
Example count_get_nth_ex : reachable (A:=nat) SNew ex_tree ex_list /\
  get_by_augmentation (A:=nat) ex_tree 55 = Ok (Some (175, 1750)%Z) /\
  get_by_augmentation (A:=nat) ex_tree 80 = Ok None.
Proof. split; [by apply ex_reachable|]. split_and!; vm_compute; reflexivity. Qed.
Example count_rank_smaller_ex : reachable (A:=nat) SNew ex_tree ex_list /\
  rank_by_augmentation (A:=nat) ex_tree 175%Z = Ok (ROk 55) /\
  rank_by_augmentation (A:=nat) ex_tree 100%Z = Ok (RErr 50).
Proof. split; [by apply ex_reachable|]. split_and!; vm_compute; reflexivity. Qed.
Example count_remove_nth_ex : reachable (A:=nat) SNew ex_tree ex_list /\ orphan_free (length (spec_begin (@SNew Z Z))) /\
  match remove_by_augmentation (A:=nat) ex_tree 55 with
  | Ok (r, T) => r = Some (175, 1750)%Z /\ t_aug T = 79 /\ get_by_augmentation T 55 = Ok (Some (176, 1760)%Z)
  | _ => False end.
Proof. split; [by apply ex_reachable|]. split; [by left|]. vm_compute. done. Qed.
(** removals that stop are in [remove_right_or_stops_ex] (PropBulk) *)
Example count_remove_or_stops_ex : reachable (A:=nat) SNew ex_tree ex_list /\
  match remove_by_augmentation (A:=nat) ex_tree 55 with Ok (r, T) => r = Some (175, 1750)%Z /\ t_aug T = 79 | _ => False end /\
  match remove_by_augmentation (A:=nat) ex_tree 80 with Ok (r, T) => r = None /\ t_aug T = 80 | _ => False end.
Proof. split; [by apply ex_reachable|]. split; vm_compute; done. Qed.
Example count_get_mut_nth_ex : reachable (A:=nat) SNew ex_tree ex_list /\
  match get_mut_by_augmentation (A:=nat) ex_tree 55 Z.succ with
  | Ok (r, T) => r = Some 1750%Z /\ get_by_augmentation T 55 = Ok (Some (175, 1751)%Z)
  | _ => False end.
Proof. split; [by apply ex_reachable|]. vm_compute. done. Qed.
End CountExamples.

(** C27: let [R a l] say that the augmentation [a] describes the run of entries
    [l], and let the user's [from_leaf], [from_inner] and [default] respect [R].
    Then after every history the root augmentation describes exactly the entries
    of the map.  A history that writes through [get_mut] needs an augmentation
    that looks at the keys only. *)
Theorem root_augmentation_in_sync {K V A} {KO : KeyOps K} {PF : Profile} {OL : OrdLaws K} {AO : AugOps K V A}
    (R : A -> list (K * V) -> Prop) b ops rs T :
  summary_ok R -> proper (A:=A) b ops -> exec b ops = Ok (rs, T) -> (Exists is_write ops -> key_aug (A:=A)) ->
  R (t_aug T) (spec_exec b ops).2.
Proof. exact (summary_top b ops rs T R). Qed.
Print Assumptions root_augmentation_in_sync.

Section SumExample.
(** the sum of the values *)
Definition zsum (l : list Z) : Z := foldr Z.add 0%Z l.
Definition sum_aug : AugOps Z Z Z := {|
  from_leaf := fun _ vs => zsum vs; from_inner := fun _ l => zsum l; aug_default := 0%Z; aug_needs_drop := false |}.
Local Instance ex_sum : AugOps Z Z Z := sum_aug.
Lemma zsum_app l1 l2 : zsum (l1 ++ l2) = (zsum l1 + zsum l2)%Z.
Proof. induction l1 as [|x l1 IH]; simpl; [done|]. rewrite IH. lia. Qed.
Lemma sum_summary : summary_ok (A:=Z) (fun a (l : list (Z * Z)) => a = zsum (map snd l)).
Proof.
  split; [done| |done]. intros ks aus ls _ _ _ H. simpl. clear ks. induction H as [|a l aus ls -> _ IH]; [done|].
  simpl. rewrite map_app, zsum_app. by rewrite IH.
Qed.
(** the sum of a map where an update, removals and splits happened *)
Definition sum_ops : list (op Z Z) := zinserts (zseq 0 200 ++ zseq 0 3) ++ zremoves (zseq 50 120).
Example root_augmentation_in_sync_ex :
  proper (A:=Z) SNew sum_ops /\ (Exists is_write sum_ops -> key_aug (A:=Z)) /\
  match exec (A:=Z) SNew sum_ops with
  | Ok (_, T) => t_aug T = zsum (map snd ex_list) /\ t_aug T = 67600%Z
  | _ => False end.
Proof.
  split; [apply legal_proper, zops_legal; [done|by left|by vm_compute|done]|]. split; [|vm_compute; done].
  intros H. exfalso. apply Exists_exists in H as (x & Hx & Hw). apply elem_of_app in Hx as [Hx|Hx];
    apply elem_of_list_fmap in Hx as (y & -> & _); done.
Qed.
End SumExample.
