(** C49: access through a [SearchAugmentation] written by a user. *)
From stdpp Require Import list.
From Coq Require Import ZArith.
From Verif Require Import Base Slots Store Tree Remove Iterators Observe BulkLoad History Spec Contents Augment AugSpec
  SearchSpec View ViewRead FollowSpec FollowProof Instances HistTop HistProof SearchProof PropAug.

(** The examples are computed in the dev profile. *)
Local Existing Instance dev_build.

(** C49: whatever order the search follows, as long as its answers are in range
    [get_by_augmentation], [get_mut_by_augmentation] and [remove_by_augmentation]
    end without undefined behaviour, agree on one entry of the map (or on none),
    and write or remove that entry only. *)
Theorem search_access_partial {K V A Q} {KO : KeyOps K} {PF : Profile} {OL : OrdLaws K} {AO : AugOps K V A} {SO : SearchOps K V A Q}
    b (T : tree K V A) l (q : Q) :
  search_in_range (K:=K) (V:=V) (A:=A) (Q:=Q) -> reachable b T l ->
  (get_by_augmentation T q = Ok None /\ (forall f, get_mut_by_augmentation T q f = Ok (None, T)) /\
   remove_by_augmentation T q = Ok (None, T)) \/
  exists j k v, l !! j = Some (k, v) /\ get_by_augmentation T q = Ok (Some (k, v)) /\
    (forall f, exists T', get_mut_by_augmentation T q f = Ok (Some v, T') /\ reachable b T' (<[j := (k, f v)]> l)) /\
    (removal_ok (A:=A) b l ->
     exists T', remove_by_augmentation T q = Ok (Some (k, v), T') /\ reachable b T' (delete j l)).
Proof. intros HS. exact (search_access HS b T l q). Qed.
Print Assumptions search_access_partial.

(** C49: without any condition on the answers: the summaries the nodes hold and the
    answers decide where the search lands in the tree of nodes ([follow]), and
    that decides what the calls do *)
Theorem search_access_exact {K V A Q} {KO : KeyOps K} {PF : Profile} {OL : OrdLaws K} {AO : AugOps K V A} {SO : SearchOps K V A Q}
    b (T : tree K V A) l w (q : Q) :
  reachable b T l -> tree_shows T w ->
  match follow (held T) w q with
  | Nothing => get_by_augmentation T q = Ok None /\ (forall f, get_mut_by_augmentation T q f = Ok (None, T)) /\
      remove_by_augmentation T q = Ok (None, T)
  | Entry j => exists k v, l !! j = Some (k, v) /\ get_by_augmentation T q = Ok (Some (k, v)) /\
      (forall f, exists T', get_mut_by_augmentation T q f = Ok (Some v, T') /\ reachable b T' (<[j := (k, f v)]> l)) /\
      (drop_ok (A:=A) l ->
       (exists T', remove_by_augmentation T q = Ok (Some (k, v), T') /\ reachable b T' (delete j l)) \/
       ~ orphan_free (length (spec_begin b)) /\
       (remove_by_augmentation T q = Panic \/ dev = false /\ remove_by_augmentation T q = UB))
  | Outside => get_by_augmentation T q = UB /\ (forall f, get_mut_by_augmentation T q f = UB) /\
      forall r, remove_by_augmentation T q <> Ok r
  end.
Proof. exact (follow_ok b T l w q). Qed.
Print Assumptions search_access_exact.

(** C49: [remove_by_augmentation] removes the entry [get_by_augmentation] shows, or
    stops at a node that a bulk load left over *)
Theorem search_remove_or_stops {K V A Q} {KO : KeyOps K} {PF : Profile} {OL : OrdLaws K} {AO : AugOps K V A} {SO : SearchOps K V A Q}
    b (T : tree K V A) l (q : Q) r :
  reachable b T l -> drop_ok (A:=A) l -> get_by_augmentation T q = Ok r ->
  match r with
  | None => remove_by_augmentation T q = Ok (None, T)
  | Some kv =>
      (exists j T', l !! j = Some kv /\ remove_by_augmentation T q = Ok (Some kv, T') /\ reachable b T' (delete j l)) \/
      ~ orphan_free (length (spec_begin b)) /\
      (remove_by_augmentation T q = Panic \/ dev = false /\ remove_by_augmentation T q = UB)
  end.
Proof. exact (search_remove_gen b T l q r). Qed.
Print Assumptions search_remove_or_stops.

(** *** Example: the entry at which the running sum of the values passes [q] *)
Section SumSearch.
Local Instance ex_sum' : AugOps Z Z Z := sum_aug.
Fixpoint pick (q : Z) (ws : list Z) : option (nat * Z) :=
  match ws with
  | [] => None
  | w :: ws => if Z.ltb q w then Some (0, q) else '(i, q) ← pick (q - w) ws; Some (S i, q)
  end.
Lemma pick_lt ws q i q' : pick q ws = Some (i, q') -> i < length ws.
Proof.
  revert q i. induction ws as [|w ws IH]; intros q i H; [done|]. simpl in *. destruct (Z.ltb q w).
  - injection H as <- <-. lia.
  - destruct (pick (q - w) ws) as [[j r]|] eqn:E; [|done]. simpl in H. injection H as <- <-. apply IH in E. lia.
Qed.
Definition sum_search : SearchOps Z Z Z Z := {|
  locate_in_leaf := fun q _ vs => fst <$> pick q vs; locate_in_inner := fun q _ aus => pick q aus |}.
Local Instance ex_sum_search : SearchOps Z Z Z Z := sum_search.
Lemma sum_search_in_range : search_in_range (K:=Z) (V:=Z) (A:=Z) (Q:=Z).
Proof.
  split.
  - intros q ks vs i L _ H. simpl in H. destruct (pick q vs) as [[j r]|] eqn:E; [|done]. injection H as <-.
    apply pick_lt in E. lia.
  - intros q ks aus i q' L _ H. simpl in H. by apply pick_lt in H.
Qed.
Example search_access_partial_ex : search_in_range (K:=Z) (V:=Z) (A:=Z) (Q:=Z) /\
  reachable (A:=Z) SNew ex_tree ex_list /\ removal_ok (A:=Z) (@SNew Z Z) ex_list /\
  ex_list !! 55 = Some (175, 1750)%Z /\
  get_by_augmentation (A:=Z) ex_tree 20900%Z = Ok (Some (175, 1750)%Z) /\
  get_by_augmentation (A:=Z) ex_tree 67600%Z = Ok None /\
  match remove_by_augmentation (A:=Z) ex_tree 20900%Z with
  | Ok (r, T) => r = Some (175, 1750)%Z /\ t_len T = 79 /\ get_by_augmentation T 20900%Z = Ok (Some (176, 1760)%Z)
  | _ => False end.
Proof.
  split; [apply sum_search_in_range|]. split; [by apply ex_reachable|]. split; [by split; [left|left]|].
  split_and!; vm_compute; try done.
Qed.
Example search_access_exact_ex : let w := tree_view (A:=Z) ex_tree in
  reachable (A:=Z) SNew ex_tree ex_list /\ tree_shows (A:=Z) ex_tree w /\
  follow (held (A:=Z) ex_tree) w 20900%Z = Entry 55 /\ follow (held (A:=Z) ex_tree) w 67600%Z = Nothing.
Proof.
  split; [by apply ex_reachable|]. split; [apply tree_view_shows; vm_compute; reflexivity|]. vm_compute. done.
Qed.
(** removals that stop are in [remove_right_or_stops_ex] (PropBulk) *)
Example search_remove_or_stops_ex :
  reachable (A:=Z) SNew ex_tree ex_list /\ drop_ok (A:=Z) ex_list /\
  get_by_augmentation (A:=Z) ex_tree 20900%Z = Ok (Some (175, 1750)%Z) /\
  match remove_by_augmentation (A:=Z) ex_tree 20900%Z with Ok (r, T) => r = Some (175, 1750)%Z /\ t_len T = 79 | _ => False end /\
  get_by_augmentation (A:=Z) ex_tree 67600%Z = Ok None.
Proof. split; [by apply ex_reachable|]. split; [by left|]. split_and!; vm_compute; done. Qed.
End SumSearch.

(** Without the range hypothesis the property fails: the trait is safe to
    implement, and its answers index the nodes unchecked.  Here the search answers
    one past the last entry of a leaf ([wild_leaf]), or one past the last child of
    an inner node ([wild_inner]). *)
Section Wild.
Local Instance ex_unit : AugOps Z Z unit := unit_aug.
Definition wild_leaf : SearchOps Z Z unit unit := {|
  locate_in_leaf := fun _ ks _ => Some (length ks); locate_in_inner := fun _ _ _ => Some (0, ()) |}.
Definition wild_inner : SearchOps Z Z unit unit := {|
  locate_in_leaf := fun _ _ _ => Some 0; locate_in_inner := fun _ _ aus => Some (length aus, ()) |}.
Theorem search_access_refuted : exists (b : start Z Z) (T : tree Z Z unit) l,
  reachable b T l /\ removal_ok (A:=unit) b l /\
  get_by_augmentation (SO:=wild_leaf) T () = UB /\ get_mut_by_augmentation (SO:=wild_leaf) T () Z.succ = UB /\
  get_by_augmentation (SO:=wild_inner) T () = UB /\ get_mut_by_augmentation (SO:=wild_inner) T () Z.succ = UB /\
  remove_by_augmentation (SO:=wild_inner) T () = UB.
Proof.
  exists SNew, ex_tree, ex_list. split; [by apply ex_reachable|]. split; [by split; [left|left]|].
  split_and!; vm_compute; reflexivity.
Qed.
Print Assumptions search_access_refuted.
Example search_outside_ex : let w := tree_view (A:=unit) ex_tree in tree_shows (A:=unit) ex_tree w /\
  follow (SO:=wild_leaf) (held (A:=unit) ex_tree) w () = Outside /\ follow (SO:=wild_inner) (held (A:=unit) ex_tree) w () = Outside /\
  remove_by_augmentation (SO:=wild_leaf) (A:=unit) ex_tree () = Panic.
Proof. split; [apply tree_view_shows; vm_compute; reflexivity|]. vm_compute. done. Qed.
End Wild.
