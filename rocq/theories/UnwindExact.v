(** Interrupted removals: exactly when what is left behind can still be searched. *)
From stdpp Require Import list sorting.
From Verif Require Import Base Slots BinSearch LeafNode InnerNode Store Tree Remove Unwind
  SlotLemmas NodeLemmas Spec AnySpec Order Logical Descent InsertProof InvLemmas InsertTop
  RemoveLeaf RemoveInner RemoveProof RemoveTop Lookup RefProof UnwindSpec UnwindProof UnwindSafe.

Section Exact.
Context {K V A : Type} {KO : KeyOps K} {PF : Profile} {AO : AugOps K V A}.
Implicit Types (s : store K V A) (E : list (K * V)).

(** ** Nodes that lost a child *)
Definition ishrink (n n' : inner K A) : Prop :=
  (forall ks, inner_keys n = Ok ks -> exists ks', inner_keys n' = Ok ks') /\
  forall j, j <= i_size n' -> exists j', j' <= i_size n /\
    forall c, inner_child_id n j' = Ok c -> inner_child_id n' j = Ok c.
Lemma ikeep_shrink n n' : ikeep n n' -> ishrink n n'.
Proof.
  intros (H1 & H2 & H3). split; [done|]. intros j Hj. exists j. split; [lia|].
  unfold inner_child_id. by rewrite H2.
Qed.
Lemma aug_shrink n i a n' : inner_set_augmentation n i a = Ok n' -> ishrink n' n.
Proof.
  intros ([x aus] & _ & E)%obind_Ok_inv. injection E as <-. split.
  - intros ks H. by exists ks.
  - intros j Hj. by exists j.
Qed.
Lemma ishrink_trans a b c : ishrink a b -> ishrink b c -> ishrink a c.
Proof.
  intros (H1 & H2) (G1 & G2). split.
  - intros ks (ks' & Hk)%H1. by apply (G1 ks').
  - intros j (j' & Hj' & Hc)%G2. apply H2 in Hj' as (j'' & Hj'' & Hc'). exists j''. split; [done|]. auto.
Qed.

Lemma slots_all_take {T} (l : slots T) i ks : slots_all l = Ok ks -> exists ks', slots_all (take i l) = Ok ks'.
Proof.
  revert i ks. induction l as [|[x|] l IH]; intros i ks H; simpl in *; [rewrite take_nil; simpl; eauto| |done].
  destruct i as [|i]; simpl; [eauto|]. apply obind_Ok_inv in H as (l0 & E & _). destruct (IH i _ E) as (l1 & ->). simpl. eauto.
Qed.
Lemma slots_all_tail {T} (l : slots T) ks : slots_all l = Ok ks -> exists ks', slots_all (tail l) = Ok ks'.
Proof.
  destruct l as [|[x|] l]; simpl; intros H; [eauto| |done]. apply obind_Ok_inv in H as (l0 & E & _). eauto.
Qed.

Lemma pop_shrink n x n' : inner_able_to_lend n = true -> inner_pop n = Ok (x, n') -> ishrink n n'.
Proof.
  intros Hl%bool_decide_eq_true. unfold inner_pop, slot_take. destruct (i_size n) as [|i] eqn:Ez; [lia|]. cbn [usize_pred]. rewrite obind_Ok.
  destruct (i_keys n !! i) as [[k|]|] eqn:Ek; try done. simpl.
  destruct (i_child n !! S i) as [[c|]|] eqn:Ec; try done. simpl.
  destruct (i_augs n !! S i) as [[a|]|] eqn:Ea; try done. simpl. intros E. injection E as _ <-. split.
  - intros ks. unfold inner_keys, slots_prefix. simpl. rewrite Ez, insert_length.
    destruct (decide (S i <= _)) as [D|]; [|done]. intros H. rewrite decide_True by lia.
    rewrite take_insert by lia. apply (slots_all_take _ i) in H as (ks' & H). rewrite take_take in H.
    replace (i `min` S i) with i in H by lia. eauto.
  - simpl. intros j Hj. exists j. split; [lia|]. intros c'. unfold inner_child_id, slot_get. simpl.
    by rewrite list_lookup_insert_ne by lia.
Qed.
Lemma pop_front_shrink n x n' : inner_pop_front n = Ok (x, n') -> ishrink n n'.
Proof.
  unfold inner_pop_front, slice_remove. intros H.
  apply obind_Ok_inv in H as ([k ks] & Hk & H). apply obind_Ok_inv in H as ([c cs] & Hc & H).
  apply obind_Ok_inv in H as ([a aus] & _ & H). destruct (i_size n) as [|i] eqn:Ez.
  { exfalso. destruct (decide _); [|done]. rewrite decide_False in Hk by lia. by destruct dev. }
  cbn [usize_pred] in H. rewrite obind_Ok in H. injection H as _ <-.
  destruct (decide (S i <= length (i_keys n))) as [D|]; [|done]. rewrite decide_True in Hk by lia.
  destruct (i_keys n !! 0) as [[k'|]|] eqn:Ek; try done. injection Hk as _ <-.
  destruct (decide (S i + 1 <= length (i_child n))) as [D'|]; [|done]. rewrite decide_True in Hc by lia.
  destruct (i_child n !! 0) as [[c'|]|] eqn:Ec; try done. injection Hc as _ <-. split.
  - intros ks. unfold inner_keys, slots_prefix. cbn [i_keys i_size]. rewrite Ez, decide_True by done. intros H.
    replace (S i - 0 - 1) with i by lia. try rewrite take_0; cbn [app].
    rewrite decide_True by (rewrite app_length, take_length, drop_length; lia).
    rewrite take_app_le by (rewrite take_length, drop_length; lia). rewrite take_take.
    match goal with |- context [i `min` ?x] => replace (i `min` x) with i by lia end.
    apply slots_all_tail in H as (ks' & H). exists ks'. rewrite <- H. f_equal.
    destruct (i_keys n) as [|y l]; [simpl in D; lia|]. done.
  - cbn [i_size]. intros j Hj. exists (S j). split; [lia|]. intros c0. unfold inner_child_id, slot_get. cbn [i_child].
    replace (S i + 1 - 0 - 1) with (S i) by lia. try rewrite take_0; cbn [app].
    rewrite lookup_app_l by (rewrite take_length, drop_length; lia). rewrite lookup_take by lia. by rewrite lookup_drop.
Qed.

Definition shrinks s s' : Prop :=
  (forall i n, inners s !! i = Some (Some n) -> exists n', inners s' !! i = Some (Some n') /\ ishrink n n') /\
  (forall i l, leaves s !! i = Some (Some l) -> exists l', leaves s' !! i = Some (Some l')) /\
  length (inners s') = length (inners s).
Lemma ishrink_refl n : ishrink n n.
Proof. apply ikeep_shrink, ikeep_refl. Qed.
Lemma shrinks_refl s : shrinks s s.
Proof. split_and!; [|eauto|done]. intros i n H. exists n. split; [done|apply ishrink_refl]. Qed.
Lemma keeps_shrinks s s' : keeps s s' -> shrinks s s'.
Proof.
  intros (H1 & H2 & H3). split_and!; [|done..]. intros i n (n' & E & Hk)%H1. exists n'. split; [done|by apply ikeep_shrink].
Qed.
Lemma shrinks_put s s' i n n' : shrinks s s' -> get_inner s i = Ok n -> ishrink n n' -> shrinks s (put_inner s' i n').
Proof.
  intros (H1 & H2 & H3) Hg Hk. unfold get_inner in Hg.
  destruct (inners s !! i) as [[x|]|] eqn:Ex; [|done..]. injection Hg as ->.
  split_and!; unfold put_inner; cbn [inners leaves set_inners]; [|done|by rewrite insert_length].
  intros j m Hj. destruct (decide (i = j)) as [->|Hn].
  - rewrite Ex in Hj. injection Hj as <-. exists n'. split; [|done].
    apply list_lookup_insert. rewrite H3. by eapply lookup_lt_Some.
  - rewrite list_lookup_insert_ne by done. by apply H1.
Qed.
Lemma shrinks_same s pid n n' : ishrink n n' -> shrinks (put_inner s pid n) (put_inner s pid n').
Proof.
  intros Hk. split_and!; unfold put_inner; cbn [inners leaves set_inners]; [|eauto|by rewrite !insert_length].
  intros j m Hj. destruct (decide (pid = j)) as [->|Hn].
  - assert (j < length (inners s)) as Hlt by (apply lookup_lt_Some in Hj; by rewrite insert_length in Hj).
    rewrite list_lookup_insert in Hj by done. injection Hj as <-. exists n'. by rewrite list_lookup_insert.
  - rewrite list_lookup_insert_ne in Hj by done. rewrite list_lookup_insert_ne by done. exists m. split; [done|apply ishrink_refl].
Qed.
Lemma safe_shrinks s s' h node : shrinks s s' -> safe_at s h node -> safe_at s' h node.
Proof.
  intros (H1 & H2 & _). revert node. induction h as [|h IH]; intros [id|id]; simpl; try done.
  - intros (l & E). by apply (H2 id l).
  - intros (n & E & (ks & Hk) & Hc). apply H1 in E as (n' & E & K1 & K2).
    exists n'. split_and!; [done|by eapply K1|]. intros j (j' & Hj' & Hcj)%K2. apply Hc in Hj' as (c & Ec & Hs).
    exists c. split; [by apply Hcj|by apply IH].
Qed.

(** ** An interrupted fix of an inner node *)
Definition midway s sX : Prop := shrinks s sX /\ leaves sX = leaves s.
Lemma midway_put s pid node left n n' : get_inner s pid = Ok node -> get_inner s left = Ok n -> ishrink n n' ->
  midway s (put_inner (put_inner s left n') pid node).
Proof.
  intros Hp Hl Hk. split; [|done]. apply (shrinks_put _ _ _ node); [|done|apply ishrink_refl].
  apply (shrinks_put _ _ _ n); [apply shrinks_refl|done..].
Qed.
Lemma midway_same s pid n n' : ishrink n n' -> midway (put_inner s pid n) (put_inner s pid n').
Proof. intros H. split; [by apply shrinks_same|done]. Qed.

Ltac obj H := let x := fresh "x" in let Hx := fresh "Hx" in apply obind_Ok_inv in H as (x & Hx & H); try rewrite Hx, obind_Ok.
Ltac obk H := let x := fresh "x" in let Hx := fresh "Hx" in apply obind_Ok_inv in H as (x & Hx & H);
  repeat match type of x with (_ * _)%type => let y := fresh "y" in destruct x as [x y] end; cbv beta iota in H.
Ltac ag := repeat first
  [ apply agrees_Ok
  | done
  | apply agrees_call
  | progress cbv beta iota
  | match goal with |- agrees (obind _ _) (obind _ _) => apply agrees_obind; intros end
  | match goal with |- agrees (ubind _ _) (obind _ _) => apply agrees_ubind; [|intros] end
  | match goal with |- agrees (match ?x with _ => _ end) _ => destruct x end ].
Lemma aug_call_unw {B Y S} n (s : S) (e : outcome B) (f : B -> nat -> outcome (fin Y S)) sX :
  ubind (aug_call n s e) f = Ok (Unw sX) -> sX = s \/ exists b m, e = Ok b /\ f b m = Ok (Unw sX).
Proof. destruct e as [b| | | |], n; simpl; intros H; try done; [left; congruence|right; eauto]. Qed.

Lemma rotate_right_inner_unw n s st pid node slot sX stX d s' node' : get_inner s pid = Ok node ->
  u_rotate_right_inner n s st pid node slot = Ok (Unw (sX, stX)) ->
  try_rotate_right_for_inner_node (V:=V) s node slot = Ok (d, s', node') ->
  d = true /\ (midway s sX \/ midway (put_inner s' pid node') sX).
Proof.
  intros Hg H. unfold u_rotate_right_inner, try_rotate_right_for_inner_node in *. obj H. obj H. obj H. obj H. obj H.
  destruct (inner_able_to_lend x3) eqn:Elend; [|done]. obj H. destruct x4 as [[[k c] a] prev].
  apply aug_call_unw in H as [E|(la & m & Ela & H)].
  { injection E as -> ->. intros H. split.
    - repeat obk H. by injection H.
    - left. apply (midway_put _ _ _ _ x3); [done|done|]. by eapply pop_shrink. }
  rewrite Ela, obind_Ok. obj H. destruct x4 as [sk node1]. obj H. obj H.
  apply aug_call_unw in H as [E|(ra & m' & Era & H)]; [|by obj H; obj H].
  injection E as -> ->. intros H. obj H. obj H. obj H. injection H as <- <- <-. split; [done|]. right.
  apply midway_same. eapply ishrink_trans; by eapply aug_shrink.
Qed.
Lemma rotate_left_inner_unw n s st pid node slot sX stX d s' node' : get_inner s pid = Ok node ->
  u_rotate_left_inner n s st pid node slot = Ok (Unw (sX, stX)) ->
  try_rotate_left_for_inner_node (V:=V) s node slot = Ok (d, s', node') ->
  d = true /\ (midway s sX \/ midway (put_inner s' pid node') sX).
Proof.
  intros Hg H. unfold u_rotate_left_inner, try_rotate_left_for_inner_node in *. obj H. obj H. obj H. obj H. obj H.
  destruct (inner_able_to_lend x3); [|done]. obj H. destruct x4 as [[[k c] a] rgt].
  apply aug_call_unw in H as [E|(la & m & Ela & H)].
  { injection E as -> ->. intros H. split.
    - repeat obk H. by injection H.
    - left. apply (midway_put _ _ _ _ x3); [done|done|]. by eapply pop_front_shrink. }
  rewrite Ela, obind_Ok. obj H. destruct x4 as [sk node1]. obj H. obj H.
  apply aug_call_unw in H as [E|(ra & m' & Era & H)]; [|by obj H; obj H].
  injection E as -> ->. intros H. obj H. obj H. obj H. injection H as <- <- <-. split; [done|]. right.
  apply midway_same. eapply ishrink_trans; by eapply aug_shrink.
Qed.
Lemma merge_inner_unw n s st pid node slot sX stX d s' node' :
  u_merge_inner n s st pid node slot = Ok (Unw (sX, stX)) ->
  merge_inner_node (V:=V) s node slot = Ok (d, s', node') -> midway (put_inner s' pid node') sX.
Proof.
  intros H G. unfold u_merge_inner, merge_inner_node in *. apply debug_assert_inv in H, G. revert G.
  obj H. obj H. obj H. obj H. obj H. destruct x3 as [[res sk] node1]. obj H. destruct x3 as [rgt s1]. obj H. obj H.
  destruct x4 as [lft' rgt']. obj H. apply obind_Ok_inv in H as (u & _ & H).
  apply aug_call_unw in H as [E|(ra & m' & Era & H)]; [|by obj H; obj H].
  injection E as -> ->. intros H. obj H. obj H. injection H as <- <- <-.
  apply midway_same. by eapply aug_shrink.
Qed.

Lemma handle_inner_unw n s st pid node ci (kv : K * V) sX stX r s' st' node' : get_inner s pid = Ok node ->
  u_handle_inner n s st pid node ci kv = Ok (Unw (sX, stX)) ->
  handle_inner_under_size s st node ci kv = Ok (r, s', st', node') ->
  midway s sX \/ midway (put_inner s' pid node') sX.
Proof.
  intros Hg H G. unfold u_handle_inner, handle_inner_under_size in *.
  apply obind_Ok_inv in G as ([[d1 s1] node1] & G1 & G).
  apply ubind_inv in H as [([sY stY] & H & E)|([[d1' s1'] node1'] & m & H1 & H)].
  { injection E as <- <-. destruct (decide (0 < ci)); [|done].
    destruct (rotate_right_inner_unw _ _ _ _ _ _ _ _ _ _ _ Hg H G1) as (-> & Hm). injection G as _ <- _ <-. done. }
  assert (d1' = d1 /\ s1' = s1 /\ node1' = node1) as (-> & -> & ->).
  { destruct (decide (0 < ci)).
    - assert (agrees (u_rotate_right_inner (V:=V) n s st pid node (ci - 1)) (try_rotate_right_for_inner_node s node (ci - 1))) as Hag.
      { unfold u_rotate_right_inner, try_rotate_right_for_inner_node. ag. }
      rewrite H1 in Hag. simpl in Hag. rewrite Hag in G1. by injection G1.
    - injection H1 as <- <- <- <-. by injection G1. }
  destruct d1; [done|].
  assert (s1 = s /\ node1 = node) as [-> ->].
  { destruct (decide (0 < ci)); [|by injection G1].
    unfold try_rotate_right_for_inner_node in G1. obj G1. obj G1. obj G1. obj G1. obj G1.
    destruct (inner_able_to_lend x3); [|by injection G1]. by repeat obk G1. }
  apply obind_Ok_inv in G as ([[d2 s2] node2] & G2 & G).
  apply ubind_inv in H as [([sY stY] & H & E)|([[d2' s2'] node2'] & m2 & H2 & H)].
  { injection E as <- <-. destruct (decide (ci < i_size node)); [|done].
    destruct (rotate_left_inner_unw _ _ _ _ _ _ _ _ _ _ _ Hg H G2) as (-> & Hm). injection G as _ <- _ <-. done. }
  assert (d2' = d2 /\ s2' = s2 /\ node2' = node2) as (-> & -> & ->).
  { destruct (decide (ci < i_size node)).
    - assert (agrees (u_rotate_left_inner (V:=V) m s st pid node ci) (try_rotate_left_for_inner_node s node ci)) as Hag.
      { unfold u_rotate_left_inner, try_rotate_left_for_inner_node. ag. }
      rewrite H2 in Hag. simpl in Hag. rewrite Hag in G2. by injection G2.
    - injection H2 as <- <- <- <-. by injection G2. }
  destruct d2; [done|].
  destruct (if decide (0 < ci) then (ci - 1, st_merge_with_left_inner st) else (ci, st_merge_with_right_inner st)) as [ms st1].
  apply obind_Ok_inv in G as ([[d3 s3] node3] & G3 & G).
  apply ubind_inv in H as [([sY stY] & H & E)|([[d3' s3'] node3'] & m3 & H3 & H)]; [|by destruct d3'].
  injection E as <- <-. right. destruct d3; injection G as _ <- _ <-; by apply (merge_inner_unw _ _ _ _ _ _ _ _ _ _ _ H G3).
Qed.

(** ** An interrupted ascent *)
Lemma merge_result_not r (kv : K * V) i : merge_result_to_delete r kv <> DrLeafUnderSize i.
Proof. by destruct r. Qed.
Lemma handle_leaf_result s st node ci ki r s' st' (node' : inner K A) :
  handle_leaf_under_size (V:=V) s st node ci ki = Ok (r, s', st', node') -> forall i, r <> DrLeafUnderSize i.
Proof.
  intros H i. unfold handle_leaf_under_size in H. obk H. obk H. obk H.
  destruct x1; obk H; injection H as <- _ _ _; try done.
  - unfold merge_leaf_node_left in Hx2. repeat obk Hx2. injection Hx2 as E1 _ _. rewrite <- E1. apply merge_result_not.
  - unfold merge_leaf_node_with_right in Hx2. repeat obk Hx2. injection Hx2 as E1 _ _. rewrite <- E1. apply merge_result_not.
Qed.
Lemma handle_inner_result s st node ci (kv : K * V) r s' st' (node' : inner K A) :
  handle_inner_under_size s st node ci kv = Ok (r, s', st', node') -> forall i, r <> DrLeafUnderSize i.
Proof.
  intros H i. unfold handle_inner_under_size in H. obk H. destruct x; [by injection H as <-|]. obk H. destruct x; [by injection H as <-|].
  destruct (if decide (0 < ci) then (ci - 1, st_merge_with_left_inner st) else (ci, st_merge_with_right_inner st)) as [? ?]. obk H. destruct x; by injection H as <-.
Qed.
Lemma merge_leaf_left_S n s st pid node slot i x : u_merge_leaf_left (S n) s st pid node slot i <> Ok (Unw x).
Proof.
  intros H. unfold u_merge_leaf_left in H. obk H. obk H. obk H. obk H. obk H. obk H. obk H.
  apply ubind_inv in H as [(s' & H & _)|(a & m & _ & H)]; [unfold aug_call in H; by obk H|]. by repeat obk H.
Qed.
Lemma merge_leaf_right_S n s st pid node slot i x : u_merge_leaf_right (S n) s st pid node slot i <> Ok (Unw x).
Proof.
  intros H. unfold u_merge_leaf_right in H. obk H. obk H. obk H. obk H. obk H. obk H. obk H. obk H.
  apply ubind_inv in H as [(s' & H & _)|(a & m & _ & H)]; [unfold aug_call in H; by obk H|]. by repeat obk H.
Qed.
Lemma handle_leaf_unw E n s st pid node ci ki sX stX : live_ok E s -> get_inner s pid = Ok node ->
  u_handle_leaf n s st pid node ci ki = Ok (Unw (sX, stX)) -> (n = 0 -> mc stX = mc st) -> keeps s sX /\ live_ok E sX.
Proof.
  intros Hl Hg H Hn. apply (handle_leaf_safe E _ _ _ _ _ _ _ _ Hl Hg H).
  unfold u_handle_leaf in H. obk H. obk H. obk H.
  destruct x1; (apply ubind_inv in H as [([s' st'] & H & E')|([[kv s'] node'] & m & H & E')]; [|done]); injection E' as <- <-.
  - by apply rotate_right_leaf_st in H as ->.
  - by apply rotate_left_leaf_st in H as ->.
  - destruct n; [by apply Hn|]. by apply merge_leaf_left_S in H.
  - destruct n; [by apply Hn|]. by apply merge_leaf_right_S in H.
Qed.

Lemma ascend_unw n stack s st r sX stX f :
  u_remove_ascend n stack s st r = Ok (Unw (sX, stX)) -> remove_ascend stack s st r = Ok f ->
  (forall i, r = DrLeafUnderSize i -> n = 0 -> mc stX = mc st) ->
  exists st1 st2 r' s' st', stack = st1 ++ st2 /\ remove_ascend st1 s st r = Ok (r', s', st') /\
    forall E, live_ok E s' -> shrinks s' sX /\ live_ok E sX.
Proof.
  revert n s st r. induction stack as [|[[pid ci] cid] stack IH]; intros n s st r H F Hn; [done|].
  cbn [u_remove_ascend remove_ascend] in H, F.
  assert ((forall E, live_ok E s -> shrinks s sX /\ live_ok E sX) -> exists st1 st2 r' s' st', (pid, ci, cid) :: stack = st1 ++ st2 /\
    remove_ascend st1 s st r = Ok (r', s', st') /\ forall E, live_ok E s' -> shrinks s' sX /\ live_ok E sX) as Here.
  { intros H1. exists [], ((pid, ci, cid) :: stack), r, s, st. done. }
  destruct r as [kv|kv|idx].
  - obk F. obk F. obk F. apply aug_call_unw in H as [E|(a & m & Ea & H)].
    { injection E as <- <-. apply Here. split; [apply shrinks_refl|done]. }
    rewrite Hx in Ea. injection Ea as <-. rewrite Hx0, obind_Ok, Hx1, obind_Ok in H.
    destruct (IH _ _ _ _ H F ltac:(done)) as (st1 & st2 & r' & s' & st' & -> & E & G).
    exists ((pid, ci, cid) :: st1), st2, r', s', st'. split; [done|]. split; [|done]. cbn [remove_ascend].
    by rewrite Hx, obind_Ok, Hx0, obind_Ok, Hx1, obind_Ok.
  - obk F. obk F. rename x into nd. rewrite Hx, obind_Ok in H.
    pose proof (u_handle_inner_agrees n s st pid nd ci kv) as Hag.
    apply ubind_inv in H as [([sY stY] & H & E)|([[[r1 s1] st1] node1] & m & H1 & H)].
    + injection E as <- <-. destruct (handle_inner_unw _ _ _ _ _ _ _ _ _ _ _ _ _ Hx H Hx0) as [[M1 M2]|[M1 M2]].
      * apply Here. intros E. split; [done|]. by eapply live_leaves.
      * eexists [(pid, ci, cid)], stack, _, _, _. split; [done|]. split.
        { cbn [remove_ascend]. by rewrite Hx, obind_Ok, Hx0, obind_Ok. }
        intros E. split; [done|]. by eapply live_leaves.
    + rewrite H1 in Hag. simpl in Hag. rewrite Hag in Hx0. injection Hx0 as -> -> -> ->.
      destruct (IH _ _ _ _ H F) as (st2 & st3 & r' & s' & st' & -> & E & G).
      { intros i Hi. by destruct (handle_inner_result _ _ _ _ _ _ _ _ _ Hag i). }
      eexists ((pid, ci, cid) :: st2), st3, r', s', st'. split; [done|]. split; [|done]. cbn [remove_ascend].
      by rewrite Hx, obind_Ok, Hag, obind_Ok.
  - obk F. obk F. rename x into nd. rewrite Hx, obind_Ok in H.
    pose proof (u_handle_leaf_agrees n s st pid nd ci idx) as Hag.
    apply ubind_inv in H as [([sY stY] & H & E)|([[[r1 s1] st1] node1] & m & H1 & H)].
    + injection E as <- <-. specialize (Hn idx eq_refl). apply Here.
      intros E Hl. destruct (handle_leaf_unw _ _ _ _ _ _ _ _ _ _ Hl Hx H Hn) as [? ?]. split; [by apply keeps_shrinks|done].
    + rewrite H1 in Hag. simpl in Hag. rewrite Hag in Hx0. injection Hx0 as -> -> -> ->.
      destruct (IH _ _ _ _ H F) as (st2 & st3 & r' & s' & st' & -> & E & G).
      { intros i Hi. by destruct (handle_leaf_result _ _ _ _ _ _ _ _ _ Hag i). }
      eexists ((pid, ci, cid) :: st2), st3, r', s', st'. split; [done|]. split; [|done]. cbn [remove_ascend].
      by rewrite Hx, obind_Ok, Hag, obind_Ok.
Qed.

(** ** The state between two levels *)
Section Prefix.
Context {OM : OrdMode} {OI : OrdIf K}.
Context (rl ri : nat) (Hrl1 : 1 <= rl) (Hrl : rl <= 16) (Hri : 1 <= ri <= 16).
Notation seg := (nat * list (K * V))%type.

Definition seg_ok (E : list (K * V)) (x : seg) : Prop := x.2 <> [] /\ length x.2 <= 64 /\ x.2 ⊆ E.

Lemma lrep_live_ok E s (segs : list seg) : lrep (leaves s) segs -> Forall (seg_ok E) segs -> live_ok E s.
Proof.
  intros [L1 L2 L3] Hs i l Hi. pose proof (L3 i l Hi) as Hin. apply elem_of_list_fmap in Hin as ([i' kvs] & -> & Hin).
  rewrite Forall_forall in Hs. destruct (Hs _ Hin) as (H1 & H2 & H3). simpl in *.
  apply elem_of_list_split in Hin as (x & y & ->). apply linked_lookup in L1. rewrite Hi in L1. injection L1 as ->.
  eexists _, _, _. split_and!; [done..|]. done.
Qed.
Lemma lrep_in s (segs : list seg) i : lrep (leaves s) segs -> i ∈ map fst segs -> exists l, leaves s !! i = Some (Some l).
Proof.
  intros [L1 _ _] Hi. apply elem_of_list_fmap in Hi as ([i' kvs] & -> & Hin).
  apply elem_of_list_split in Hin as (x & y & ->). apply linked_lookup in L1. eauto.
Qed.
Lemma segs_concat_sub (segs : list seg) x : x ∈ segs -> x.2 ⊆ concat (map snd segs).
Proof.
  intros Hx kv Hkv. apply elem_of_list_In, in_concat. exists x.2. split; [|by apply elem_of_list_In].
  apply elem_of_list_In. change (map snd segs) with (snd <$> segs). apply elem_of_list_fmap. eauto.
Qed.
Lemma tr_segs E m b h (t : tr K V) : nshape rl ri m b h t -> flat t ⊆ E -> Forall (fun x => x.2 <> []) (leaf_seq t) ->
  Forall (seg_ok E) (leaf_seq t).
Proof.
  intros Hs Hf Hn. pose proof (nshape_segs _ _ _ _ _ _ Hs) as Hz. rewrite !Forall_forall in *. intros x Hx.
  split_and!; [by apply Hn|by apply Hz|]. intros kv Hkv. apply Hf. by apply (segs_concat_sub _ _ Hx).
Qed.
Lemma elems_delete_sub E (a b : list (K * V)) kvs off : a ++ kvs ++ b ⊆ E -> a ++ delete off kvs ++ b ⊆ E.
Proof.
  intros H x Hx. apply H. rewrite !elem_of_app in *. destruct Hx as [?|[Hx|?]]; [tauto| |tauto].
  right. left. by apply (delete_sub kvs off kvs).
Qed.
Lemma children_safe s h (ch : list (tr K V)) c : Forall (irep False (inners s) h) ch ->
  Forall (fun c => exists b', shape rl ri b' h c) ch ->
  (forall i, i ∈ map fst (concat (map leaf_seq ch)) -> exists l, leaves s !! i = Some (Some l)) ->
  c ∈ ch -> safe_at s h (nid c).
Proof.
  intros Hir Hsh Hl Hc. rewrite Forall_forall in Hir, Hsh. destruct (Hsh c Hc) as [b' Hb'].
  apply shape_nshape in Hb'. apply (irep_safe rl ri Hrl1 s h c); [by apply Hir|by eexists _, _|].
  intros id kvs Hid. apply Hl. change (map fst ?x) with (fst <$> x). apply elem_of_list_fmap. exists (id, kvs). split; [done|].
  apply elem_of_list_In, in_concat. exists (leaf_seq c). split; [apply in_map|]; by apply elem_of_list_In.
Qed.

Lemma prefix_safe E (t : tr K V) id kvs mA mB (s1 s2 : list seg) st : reach t id kvs mA mB s1 s2 st ->
  forall h m b s s0 stat pre post off kv r0,
  irep False (inners s) h t -> nshape rl ri m b h t -> m <= 16 -> (h <> 0 -> 1 <= m) -> NoDup (inner_ids t) ->
  kvs !! off = Some kv -> lrep (leaves s) (pre ++ leaf_seq t ++ post) ->
  (aug_needs_drop (K:=K) (V:=V) (A:=A) = false \/ h <= 1) ->
  leaf_start id kvs off kv (last_id None (pre ++ s1)) (hd_id (s2 ++ post) None) s s0 r0 ->
  Forall (seg_ok E) (pre ++ post) -> flat t ⊆ E ->
  forall st1 st2 r' s' stat', st = st1 ++ st2 -> remove_ascend st1 s0 stat r0 = Ok (r', s', stat') ->
  safe_at s' h (nid t) /\ (forall i, i ∉ inner_ids t -> inners s' !! i = inners s !! i) /\
  length (inners s') = length (inners s) /\ live_ok E s' /\
  (forall i, i ∈ map fst (pre ++ post) -> exists l, leaves s' !! i = Some (Some l)).
Proof.
  intros R0. induction R0 as [id kvs|nid' kl kr cl c cr id kvs mA mB s1 s2 st L1 L2 Hreach IH];
    intros h m b s s0 stat pre post off kv r0 Hir Hsh Hm Hm1 Hnd Hoff Hlr Hdrop Hstart HE Hf st1 st2 r' s' stat' Est Hrun.
  - destruct h as [|h]; [|done]. symmetry in Est. apply app_nil in Est as [-> ->]. simpl in Hrun. injection Hrun as <- <- <-.
    rewrite app_nil_r in Hstart. simpl in Hstart. simpl in Hsh.
    assert (exists kvs', lrep (leaves s0) (pre ++ (id, kvs') :: post) /\ seg_ok E (id, kvs') /\ inners s0 = inners s)
      as (kvs' & Hl0 & Hs0 & Hi0).
    { unfold leaf_start in Hstart. unfold flat in Hf. simpl in Hf. rewrite app_nil_r in Hf.
      destruct (decide (16 < length kvs)) as [D|D]; destruct Hstart as [-> ->].
      - exists (delete off kvs). pose proof (length_delete kvs off ltac:(eauto)) as Hd. split_and!; [|split_and!|done].
        + cbn [leaves put_leaf set_leaves]. apply (lrep_update _ _ _ _ (delete off kvs)) in Hlr. exact Hlr.
        + simpl. intros E0. rewrite E0 in Hd. simpl in Hd. lia.
        + simpl. lia.
        + simpl. by apply delete_sub.
      - exists kvs. split_and!; [done| |done]. split_and!; [|simpl; lia|done]. simpl. intros ->. done. }
    simpl. split_and!; [|by rewrite Hi0|by rewrite Hi0| |].
    + apply (lrep_in s0 _ id Hl0). rewrite map_app. simpl. apply elem_of_app. right. left.
    + eapply lrep_live_ok; [exact Hl0|]. apply Forall_app in HE as [? ?]. apply Forall_app. split; [done|]. by constructor.
    + intros i Hi. apply (lrep_in s0 _ i Hl0). rewrite map_app in Hi |- *. simpl. apply elem_of_app in Hi. rewrite elem_of_app, elem_of_cons. tauto.
  - destruct h as [|h]; [done|].
    pose proof Hrl1 as _. destruct (nodup_node _ _ _ _ _ Hnd) as (N1 & N2 & N3 & N4 & N5 & N6).
    assert (reach (TNode nid' (kl ++ kr) (cl ++ c :: cr)) id kvs (zl cl kl ++ mA) (mB ++ zr kr cr)
      (concat (map leaf_seq cl) ++ s1) (s2 ++ concat (map leaf_seq cr)) (st ++ [(nid', length cl, nid c)])) as R by (by constructor).
    assert (st2 = [] \/ exists st2', st2 = st2' ++ [(nid', length cl, nid c)]) as [->|[st2' ->]].
    { destruct st2 as [|y st2] using rev_ind; [by left|]. right. rewrite app_assoc in Est. apply app_inj_tail in Est as [_ <-]. eauto. }
    + rewrite app_nil_r in Est. subst st1.
      destruct (remove_ascend_ok rl ri False Hrl (proj2 Hri) _ _ _ _ _ _ _ _ (proj1 Hri) R (S h) m b s s0 stat pre post off kv r0) as
        (s2' & stat2 & r2 & t2 & Hasc & Hln & Hfr & En & Hir2 & Hlr2 & _ & Hpost); try done.
      specialize (Hasc []). rewrite app_nil_r in Hasc. rewrite Hasc in Hrun. simpl in Hrun. injection Hrun as -> -> ->.
      assert (exists m', nshape rl ri m' b (S h) t2 /\ flat t2 = elems (zl cl kl ++ mA) ++ delete off kvs ++ elems (mB ++ zr kr cr))
        as (m' & Hsh2 & Hfl2).
      { destruct r'; [|..|by destruct Hpost]; destruct Hpost; [exists m|exists (m - 1)]; tauto. }
      assert (Forall (seg_ok E) (pre ++ leaf_seq t2 ++ post)) as HE2.
      { apply Forall_app in HE as [? ?]. rewrite !Forall_app. split_and!; [done| |done].
        eapply tr_segs; [exact Hsh2| |by eapply nshape_nonempty].
        rewrite Hfl2. apply elems_delete_sub. 
        rewrite <- (elems_emark kvs), <- !elems_app, <- (reach_trav _ _ _ _ _ _ _ _ R), elems_trav. done. }
      split_and!; [|done|done|by eapply lrep_live_ok|].
      * rewrite <- En. apply (irep_safe rl ri Hrl1 s' (S h) t2); [done|by eexists _, _|]. intros i kvs0 Hi. apply (lrep_in s' _ i Hlr2).
        rewrite !map_app, !elem_of_app. right. left. change (map fst ?x) with (fst <$> x). apply elem_of_list_fmap. by exists (i, kvs0).
      * intros i Hi. apply (lrep_in s' _ i Hlr2). rewrite !map_app, !elem_of_app. rewrite map_app, elem_of_app in Hi. tauto.
    + rewrite app_assoc in Est. apply app_inj_tail in Est as [Est _].
      destruct Hir as [(aus & Ep & Hlaus & Haug) Hch].
      pose proof Hsh as (Hks & Hlen & Hchs). pose proof Hchs as Hchs0.
      apply chs_app in Hchs as (C1 & C2 & C3). apply shape_nshape in C2.
      apply Forall_app in Hch as [F1 F2]. apply Forall_cons in F2 as [F3 F4].
      assert (lrep (leaves s) ((pre ++ concat (map leaf_seq cl)) ++ leaf_seq c ++ (concat (map leaf_seq cr) ++ post))) as Hlr'.
      { simpl in Hlr. rewrite map_app, concat_app in Hlr. simpl in Hlr. rewrite <- !app_assoc in *. done. }
      assert (Forall (seg_ok E) (leaf_seq (TNode nid' (kl ++ kr) (cl ++ c :: cr)))) as HEt.
      { eapply tr_segs; [exact Hsh|done|by eapply nshape_nonempty]. }
      simpl in HEt. rewrite map_app, concat_app in HEt. simpl in HEt. apply Forall_app in HEt as [HE1 HE2].
      apply Forall_app in HE2 as [_ HE3].
      destruct (IH h (smin rl ri (cflag b cr) h) (cflag b cr) s s0 stat (pre ++ concat (map leaf_seq cl))
        (concat (map leaf_seq cr) ++ post) off kv r0) with (st1 := st1) (st2 := st2') (r' := r') (s' := s') (stat' := stat')
        as (Hsc & Hfr & Hln & Hlv & Hin); try done.
      { unfold smin. destruct (cflag b cr), h; lia. }
      { intros Hh. unfold smin. destruct (cflag b cr), h; lia || done. }
      { destruct Hdrop as [?|?]; [by left|right; lia]. }
      { rewrite <- !app_assoc in *. done. }
      { apply Forall_app in HE as [? ?]. rewrite !Forall_app. done. }
      { intros x Hx. apply Hf. rewrite flat_node, map_app, concat_app. simpl. rewrite !elem_of_app. tauto. }
      split_and!; [|intros i Hi; apply Hfr; rewrite inner_ids_node, elem_of_cons, ids_app, ids_cons, !elem_of_app in Hi; tauto|done|done|].
      2:{ intros i Hi. apply Hin. rewrite !map_app, !elem_of_app. rewrite map_app, elem_of_app in Hi. tauto. }
      simpl. exists (mk_inner (kl ++ kr) (map nid (cl ++ c :: cr)) aus). split_and!; [by rewrite Hfr| |].
      * exists (kl ++ kr). apply inner_keys_mk. unfold inner_fits, INNER_N. rewrite map_length. lia.
      * cbn [i_size mk_inner]. intros j Hj. destruct (lookup_lt_is_Some_2 (cl ++ c :: cr) j ltac:(lia)) as [x Hx].
        exists (nid x). split; [apply inner_child_id_mk; change (map nid ?y) with (nid <$> y); by rewrite list_lookup_fmap, Hx|].
        apply elem_of_list_lookup_2, elem_of_app in Hx.
        assert (Forall (irep False (inners s') h) cl) as F1' by (eapply Forall_irep_frame; [done|]; intros i Hi _; apply Hfr; by apply N5).
        assert (Forall (irep False (inners s') h) cr) as F4' by (eapply Forall_irep_frame; [done|]; intros i Hi _; apply Hfr; by apply N6).
        assert (forall y, y ∈ cl ++ c :: cr -> exists b', shape rl ri b' h y) as Hall.
        { intros y Hy. destruct (chs_elem _ _ _ _ Hchs0 Hy); eauto. }
        destruct Hx as [Hx|[->|Hx]%elem_of_cons]; [|done|].
        -- eapply (children_safe s' h cl); try done.
           ++ apply Forall_forall. intros y Hy. apply Hall, elem_of_app. by left.
           ++ intros i Hi. apply Hin. rewrite !map_app, !elem_of_app. tauto.
        -- eapply (children_safe s' h cr); try done.
           ++ apply Forall_forall. intros y Hy. apply Hall, elem_of_app. right. by right.
           ++ intros i Hi. apply Hin. rewrite !map_app, !elem_of_app. tauto.
Qed.

(** ** The removal *)
Lemma u_remove_get_exact T h t n p T' : InvAt rl ri False T h t -> (ORD -> probe_ok p) -> (N.of_nat (t_len T) < 2 ^ 64)%N ->
  (aug_needs_drop (K:=K) (V:=V) (A:=A) = false \/ h <= 1) ->
  u_remove n T p = Ok (Unw T') -> (n = 0 -> mc (t_st T') = mc (t_st T)) ->
  forall q c, exists o c', get (recached T' c) q = Ok (o, recached T' c') /\ get_any q (flat t) o.
Proof.
  intros HI Hp Hlen Hdrop H Hn q c.
  destruct (home_exists rl ri False T h t p HI Hp) as (id & kvs & mA & mB & s1 & s2 & st & Hm).
  pose proof (fuel_inv rl ri False T h t HI) as Hfuel.
  assert (h <= MAX_DEPTH) as Hh.
  { pose proof (inv_len _ _ _ _ _ _ HI) as E. rewrite E in Hlen. eapply height_bound; [apply HI|done]. }
  destruct Hm as [R Hst FA FB (D1 & D2 & D3) Ef Esq EA EB El Hsz Hsk].
  destruct (leaf_locate_any p kvs (last_id None s1) (hd_id s2 None) Hp Hsz Hsk) as (r & Er & Hr).
  unfold u_remove, key_to_ref in H. rewrite (inv_root _ _ _ _ _ _ HI), D2 in H by (done || simpl; lia).
  assert (forall f st0, key_to_ref_loop f (t_store T) (NLeaf id) p st0 =
    match r with ROk idx => Ok (Some (st0, id, idx)) | RErr _ => Ok None end) as Hkr.
  { intros f st0. destruct f; simpl; unfold get_leaf; rewrite El, obind_Ok, Er, obind_Ok; done. }
  rewrite Hkr, app_nil_r in H. destruct r as [i|i]; [|done]. rewrite obind_Ok in H.
  destruct Hr as (xa & k & v & xb & Ekvs & Ei & Hk & Hab).
  assert (kvs !! i = Some (k, v)) as Hoff by (rewrite Ekvs, Ei; by apply lookup_middle').
  apply ubind_inv in H as [(T1 & H & E1)|([kv ?] & m & _ & E1)]; [|done]. injection E1 as <-.
  destruct (remove_by_ref_ok rl ri False Hrl Hri T h t id kvs mA mB s1 s2 st i (k, v) HI R Hoff Hdrop)
    as (T2 & h2 & t2 & Hrem & HI2 & Hh2 & Hf2 & _).
  unfold u_remove_by_ref in H. unfold remove_by_ref in Hrem. set (s := t_store T) in *.
  assert (get_leaf s id = Ok (mk_leaf kvs (last_id None s1) (hd_id s2 None))) as Eg by (unfold get_leaf; by rewrite El).
  cbv zeta in H, Hrem. rewrite Eg, obind_Ok in H. rewrite Eg, obind_Ok in Hrem.
  apply obind_Ok_inv in H as ([rr n0] & Etry & H). rewrite Etry, obind_Ok in Hrem.
  cbn iota beta in H, Hrem.
  set (r0 := match rr with DelDone kv => DrDone kv | DelUnderSize idx => DrLeafUnderSize idx end) in *.
  set (s0 := put_leaf s id n0) in *.
  apply obind_Ok_inv in H as (f & Hasc & H).
  apply obind_Ok_inv in Hrem as ([[r1 s1'] st1'] & Hasc' & Hrem).
  destruct f as [[[r2 s2'] st2'] m|[sX stX]].
  - (* the last call *)
    pose proof (u_remove_ascend_agrees n st s0 (t_st T) r0) as Hag. rewrite Hasc in Hag. simpl in Hag.
    rewrite Hasc' in Hag. injection Hag as <- <- <-.
    apply obind_Ok_inv in H as ([[kv root] s3] & Hroot & H).
    change (match r1 with
      | DrDone kv => Ok (kv, t_root T, s1')
      | DrInnerUnderSize kv => let! rid := inner_id_unchecked (t_root T) in let! root := get_inner s1' rid in
          if decide (i_size root = 0) then let! c := inner_child_id root 0 in Ok (kv, c, s1') else Ok (kv, t_root T, s1')
      | DrLeafUnderSize idx => let! lid := leaf_id_unchecked (t_root T) in let! l := get_leaf s1' lid in
          let! '(kv, l) := leaf_delete_at l idx in Ok (kv, t_root T, put_leaf s1' lid l)
      end = Ok (kv, root, s3)) in Hroot.
    rewrite Hroot, obind_Ok in Hrem. apply obind_Ok_inv in Hrem as (a & _ & Hrem). apply obind_Ok_inv in Hrem as (len & _ & Hrem).
    injection Hrem as _ E2.
    apply ubind_call_inv in H as [H|(a' & m' & H)]; [|by obk H]. injection H as ->.
    destruct (inv_safe rl ri Hrl1 T2 h2 t2 HI2) as [Hs2 Hl2]. pose proof (fuel_inv rl ri False T2 h2 t2 HI2) as Hfu2.
    rewrite <- E2 in Hs2, Hl2, Hfu2. cbn [t_store t_root] in Hs2, Hl2, Hfu2.
    apply (get_safe _ _ h2); [done|done|]. intros j l Hj. destruct (Hl2 j l Hj) as (kvs0 & pv & nx & -> & G1 & G2 & G3).
    exists kvs0, pv, nx. split_and!; [done..|]. intros x Hx. rewrite Ef. apply (elems_delete_sub _ _ _ kvs i (fun x Hx => Hx)).
    rewrite <- Hf2. by apply G3.
  - injection H as <-. cbn [t_st] in Hn.
    assert (leaf_start id kvs i (k, v) (last_id None ([] ++ s1)) (hd_id (s2 ++ []) None) s s0 r0) as Hstart.
    { unfold leaf_start, r0, s0. rewrite app_nil_r. simpl. unfold leaf_try_delete_at in Etry. rewrite leaf_lend_mk in Etry.
      destruct (decide (16 < length kvs)) as [D|D].
      - rewrite bool_decide_true in Etry by done. rewrite (leaf_delete_at_mk _ _ _ _ (k, v)) in Etry by done.
        rewrite obind_Ok in Etry. by injection Etry as <- <-.
      - rewrite bool_decide_false in Etry by done. injection Etry as <- <-. split; [done|].
        unfold put_leaf. rewrite list_insert_id by done. by destruct s. }
    destruct (ascend_unw _ _ _ _ _ _ _ _ Hasc Hasc') as (st1 & st2 & r' & s' & stat' & Est & Hrun & Hsh).
    { intros j _. exact Hn. }
    destruct (prefix_safe (flat t) t id kvs mA mB s1 s2 st R h (rmin h) true s s0 (t_st T) [] [] i (k, v) r0)
      with (st1 := st1) (st2 := st2) (r' := r') (s' := s') (stat' := stat') as (Hsafe & _ & Hln & Hlv & _); try done; try apply HI.
    { destruct h; simpl; lia. }
    { destruct h; simpl; [done|lia]. }
    { rewrite app_nil_r. apply HI. }
    { constructor. }
    destruct (Hsh _ Hlv) as [Hsx Hlx].
    apply (get_safe _ _ h); cbn [t_store t_root].
    + rewrite (inv_root _ _ _ _ _ _ HI). by eapply safe_shrinks.
    + destruct Hsx as (_ & _ & Hsx). unfold descend_fuel in *. by rewrite Hsx, Hln.
    + done.
Qed.
End Prefix.

(** ** The merge of two leaves cut short *)
Definition torn (s sX : store K V A) : Prop := inners sX = inners s /\
  exists rid rgt, leaves s !! rid = Some (Some rgt) /\ leaves sX !! rid = Some None.

Lemma put_inner_same s pid (node : inner K A) : get_inner s pid = Ok node -> inners (put_inner s pid node) = inners s.
Proof.
  unfold get_inner. destruct (inners s !! pid) as [[x|]|] eqn:E; intros H; try done. injection H as ->.
  unfold put_inner. cbn [inners set_inners]. by apply list_insert_id.
Qed.
Lemma torn_merge s s1 pid node rid lid rgt lft lft' : get_inner s pid = Ok node ->
  take_leaf s rid = Ok (rgt, s1) -> get_leaf s1 lid = Ok lft -> torn s (put_inner (put_leaf s1 lid lft') pid node).
Proof.
  intros Hg Ht Hl. unfold take_leaf in Ht. destruct (leaves s !! rid) as [[x|]|] eqn:E; try done. injection Ht as -> <-.
  split; [by apply (put_inner_same s)|]. exists rid, rgt. split; [done|].
  unfold get_leaf, put_leaf, put_inner in *. cbn [leaves set_leaves set_inners] in *.
  destruct (decide (lid = rid)) as [->|Hn].
  - rewrite list_lookup_insert in Hl by (by eapply lookup_lt_Some). done.
  - rewrite list_lookup_insert_ne by done. rewrite list_lookup_insert by (by eapply lookup_lt_Some). done.
Qed.
Lemma merge_leaf_left_torn n s st pid node slot i sX stX : get_inner s pid = Ok node ->
  u_merge_leaf_left n s st pid node slot i = Ok (Unw (sX, stX)) -> torn s sX.
Proof.
  intros Hg H. unfold u_merge_leaf_left in H. obk H. obk H. obk H. obk H. obk H. obk H. obk H.
  apply aug_call_unw in H as [H|(a & m & _ & H)]; [|by repeat obk H]. injection H as -> ->.
  by eapply torn_merge.
Qed.
Lemma merge_leaf_right_torn n s st pid node slot i sX stX : get_inner s pid = Ok node ->
  u_merge_leaf_right n s st pid node slot i = Ok (Unw (sX, stX)) -> torn s sX.
Proof.
  intros Hg H. unfold u_merge_leaf_right in H. obk H. obk H. obk H. obk H. obk H. obk H. obk H. obk H.
  apply aug_call_unw in H as [H|(a & m & _ & H)]; [|by repeat obk H]. injection H as -> ->.
  by eapply torn_merge.
Qed.

Lemma call0_fin {B Y S} (s : S) (e : outcome B) (f : B -> nat -> outcome (fin Y S)) x m :
  ubind (aug_call 0 s e) f <> Ok (Fin x m).
Proof. by destruct e. Qed.
Lemma handle_leaf_0 s st pid node ci ki x m : u_handle_leaf (V:=V) (A:=A) 0 s st pid node ci ki <> Ok (Fin x m).
Proof.
  intros H. unfold u_handle_leaf in H. obk H. obk H. obk H.
  destruct x2; (apply ubind_inv in H as [(? & _ & ?)|([[kv s'] node'] & m' & H & _)]; [done|]).
  - unfold u_rotate_right_leaf in H. obk H. obk H. obk H. obk H. obk H. apply debug_assert_is_inv in H. obk H. by apply call0_fin in H.
  - unfold u_rotate_left_leaf in H. obk H. obk H. obk H. obk H. obk H. apply debug_assert_is_inv in H. obk H. by apply call0_fin in H.
  - unfold u_merge_leaf_left in H. obk H. obk H. obk H. obk H. obk H. obk H. obk H. by apply call0_fin in H.
  - unfold u_merge_leaf_right in H. obk H. obk H. obk H. obk H. obk H. obk H. obk H. obk H. by apply call0_fin in H.
Qed.
Lemma handle_leaf_torn n s st pid node ci ki sX stX : get_inner s pid = Ok node ->
  u_handle_leaf (V:=V) n s st pid node ci ki = Ok (Unw (sX, stX)) -> mc stX <> mc st -> torn s sX.
Proof.
  intros Hg H Hmc. unfold u_handle_leaf in H. obk H. obk H. obk H.
  destruct x1; (apply ubind_inv in H as [([s' st'] & H & E')|([[kv s'] node'] & m & H & E')]; [|done]); injection E' as <- <-.
  - by apply rotate_right_leaf_st in H as ->.
  - by apply rotate_left_leaf_st in H as ->.
  - by eapply merge_leaf_left_torn.
  - by eapply merge_leaf_right_torn.
Qed.
Lemma ascend_torn stack s st r sX stX :
  u_remove_ascend 0 stack s st r = Ok (Unw (sX, stX)) -> (forall kv, r <> DrInnerUnderSize kv) -> mc stX <> mc st ->
  stack <> [] /\ torn s sX /\ exists i, r = DrLeafUnderSize i.
Proof.
  intros H Hr Hmc. destruct stack as [|[[pid ci] cid] stack]; [done|]. cbn [u_remove_ascend] in H. split; [done|].
  destruct r as [kv|kv|idx]; [|by destruct (Hr kv)|].
  - apply ubind_inv in H as [(? & H & E)|(? & m & H & _)].
    + injection E as <-. unfold aug_call in H. obk H. injection H as _ <-. done.
    + unfold aug_call in H. by obk H.
  - apply obind_Ok_inv in H as (nd & Hg & H). apply ubind_inv in H as [(? & H & E)|(? & m & H & _)]; [|by apply handle_leaf_0 in H].
    injection E as <-. split; [|eauto]. by eapply handle_leaf_torn.
Qed.

Lemma u_remove_torn T p T' : u_remove 0 T p = Ok (Unw T') -> mc (t_st T') <> mc (t_st T) ->
  torn (t_store T) (t_store T') /\ t_root T' = t_root T /\
  exists stack lid off, key_to_ref T p = Ok (Some (stack, lid, off)) /\ stack <> [].
Proof.
  intros H Hmc. unfold u_remove in H.
  apply obind_Ok_inv in H as ([[[stack lid] off]|] & Hk & H); [|done].
  apply ubind_inv in H as [(T1 & H & E1)|([kv ?] & m & _ & E1)]; [|done]. injection E1 as <-.
  unfold u_remove_by_ref in H. apply obind_Ok_inv in H as (nd & Hnd & H).
  apply obind_Ok_inv in H as ([r nd'] & Hdel & H). apply obind_Ok_inv in H as (f & Hf & H).
  destruct f as [[[r2 s2] st2] m|[s2 st2]].
  - exfalso. destruct stack as [|[[pid ci] cid] stack].
    + simpl in Hf. injection Hf as <- <- <- <-. obk H.
      apply ubind_call_inv in H as [E1|(a & m' & H)]; [|by obk H]. injection E1 as ->. done.
    + cbn [u_remove_ascend] in Hf. destruct r as [kv|i].
      * by apply call0_fin in Hf.
      * apply obind_Ok_inv in Hf as (x & _ & Hf). apply ubind_inv in Hf as [(? & _ & ?)|(? & m' & Hf & _)]; [done|].
        by apply handle_leaf_0 in Hf.
  - injection H as <-. cbn [t_store t_root t_st] in *.
    destruct (ascend_torn _ _ _ _ _ _ Hf) as (Hs & Ht & i & Hi); [by destruct r|done|].
    split; [|split; [done|by exists stack, lid, off]].
    assert (put_leaf (t_store T) lid nd' = t_store T) as Es.
    { destruct r; [done|]. unfold leaf_try_delete_at in Hdel. destruct (leaf_able_to_lend nd); [by obk Hdel|].
      injection Hdel as _ <-. unfold get_leaf in Hnd. destruct (leaves (t_store T) !! lid) as [[x|]|] eqn:E; [|done..]. injection Hnd as ->.
      unfold put_leaf. rewrite list_insert_id by done. by destruct (t_store T). }
    by rewrite Es in Ht.
Qed.
Lemma descend_inners s s' fuel node p : inners s' = inners s -> descend_to_leaf fuel s' node p = descend_to_leaf fuel s node p.
Proof.
  intros Ei. revert node. induction fuel as [|fuel IH]; intros [id|id]; simpl; try done.
  unfold get_inner. rewrite Ei. destruct (inners s !! id) as [[n|]|]; simpl; try done.
  destruct (inner_locate_child n p) as [[? c]| | | |]; simpl; try done.
Qed.
End Exact.

Section Torn.
Context {K V A : Type} {KO : KeyOps K} {PF : Profile} {OL : OrdLaws K} {AO : AugOps K V A}.
Context (rl ri : nat) (Hrl1 : 1 <= rl).
Lemma u_remove_ub T h (t : tr K V) p T' : InvAt (A:=A) rl ri False T h t ->
  u_remove 0 T p = Ok (Unw T') -> mc (t_st T') <> mc (t_st T) ->
  exists a lost c, flat t = a ++ lost ++ c /\ lost <> [] /\
    forall k v, (k, v) ∈ lost -> get (recached T' None) (probe_key k) = UB.
Proof.
  intros HI H Hmc. destruct (u_remove_torn _ _ _ H Hmc) as ((Ei & rid & rgt & Er & Er') & Eroot & stack & lid & off & Hk & Hst).
  pose proof (inv_lrep _ _ _ _ _ _ HI) as [L1 L2 L3]. pose proof (L3 _ _ Er) as Hin.
  apply elem_of_list_fmap in Hin as ([rid' kvs] & -> & Hin). simpl in *.
  pose proof Hin as (s1 & s2 & Es)%elem_of_list_split.
  destruct (leaf_seq_reach rl ri t s1 rid' kvs s2 _ _ _ (inv_shape _ _ _ _ _ _ HI) Es) as (mA & mB & st & R).
  exists (concat (map snd s1)), kvs, (concat (map snd s2)). split_and!.
  - unfold flat. rewrite Es, map_app, concat_app. done.
  - destruct h as [|h].
    + exfalso. apply Hst. pose proof (inv_shape _ _ _ _ _ _ HI) as Hsh. destruct t as [id0 kvs0|]; [|done].
      unfold key_to_ref in Hk. rewrite (inv_root _ _ _ _ _ _ HI) in Hk. cbn [nid] in Hk. simpl in Hk.
      apply obind_Ok_inv in Hk as (x & _ & Hk). apply obind_Ok_inv in Hk as (x0 & _ & Hk).
      destruct x0; [|done]. by injection Hk as <-.
    + pose proof (nshape_nonempty rl ri Hrl1 _ _ _ _ (inv_shape _ _ _ _ _ _ HI)) as Hne. rewrite Forall_forall in Hne.
      by apply (Hne _ Hin).
  - intros k v [i Hi]%elem_of_list_lookup.
    pose proof (home_at rl ri False T h t k v rid' kvs mA mB s1 s2 st i HI R Hi) as Hm.
    pose proof (descend_home rl ri False T h t _ _ _ _ _ _ _ _ HI Hm) as Hd.
    unfold get, recached. cbn [t_store with_store t_root]. unfold try_cache, check_cache. cbn [cached].
    rewrite obind_Ok, Eroot. unfold descend_fuel in *. cbn [inners]. rewrite Ei.
    rewrite (descend_inners (t_store T)) by done. rewrite Hd, obind_Ok. unfold find_in_leaf, get_leaf, cache_leaf. cbn [leaves].
    by rewrite Er'.
Qed.
End Torn.
