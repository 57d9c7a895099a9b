(** Empty trees. *)
From stdpp Require Import list sorting.
From Verif Require Import Base Slots BinSearch LeafNode InnerNode Store Tree Remove Iterators Observe Cursor Augment BulkLoad History
  SlotLemmas NodeLemmas Spec Order Logical Descent InsertProof InvLemmas InsertTop RemoveLeaf RemoveInner RemoveProof RemoveTop
  Lookup HistProof HistTop.

Section Edge.
Context {K V A : Type} {KO : KeyOps K} {PF : Profile} {OL : OrdLaws K} {AO : AugOps K V A}.
Notation tree := (tree K V A).

Lemma empty_root b (T : tree) : reachable b T [] ->
  exists id pv nx, t_root T = NLeaf id /\ get_leaf (t_store T) id = Ok (mk_leaf [] pv nx).
Proof.
  intros Hr. destruct (reachable_any False b T [] Hr) as (ri & h & t & Hlow & Hri & HI & Hf & Ha & Hof & Hh); [done|].
  pose proof (inv_shape _ _ _ _ _ _ HI) as Hs. destruct h as [|h].
  - destruct t as [id kvs|]; [|done]. rewrite flat_leaf in Hf. subst kvs. exists id.
    eexists _, _. split; [apply HI|]. unfold get_leaf. by rewrite (inv_leaf _ _ _ _ _ _ [] id [] [] HI).
  - exfalso. apply root_size in Hs. rewrite Hf in Hs. cbn [length] in Hs.
    assert (1 <= 17 ^ N.of_nat h)%N by (apply N.lt_pred_le, N.neq_0_lt_0, N.pow_nonzero; done). lia.
Qed.

Lemma cursor_empty b (T : tree) : reachable b T [] ->
  cursor_first T = UB /\ cursor_first_with_value T = UB /\ cursor_last_with_value T = if dev then Panic else UB.
Proof.
  intros Hr. destruct (empty_root b T Hr) as (id & pv & nx & E & Eg).
  assert (cursor_first_with_value T = UB) as H1.
  { unfold cursor_first_with_value, first_leaf. rewrite E. destruct (descend_fuel _); simpl; rewrite Eg; done. }
  split; [unfold cursor_first; by rewrite H1|]. split; [done|].
  unfold cursor_last_with_value, last_leaf. rewrite E. destruct (descend_fuel _); simpl; rewrite Eg; rewrite obind_Ok; cbn [l_size mk_leaf length usize_pred];
    (destruct dev; [done|]); rewrite obind_Ok; unfold leaf_data_at, slot_get, mk_leaf; cbn [l_keys];
    (destruct (mk_slots LEAF_N _ !! usize_max) as [[x|]|] eqn:Ex; [|done..]; apply slot_mk_lt in Ex; simpl in Ex; lia).
Qed.

Lemma emptied_aug b (T : tree) p v T' : remove T p = Ok (Some v, T') -> reachable b T' [] -> t_aug T' = from_leaf [] [].
Proof.
  intros E Hr. destruct (empty_root b T' Hr) as (id & pv & nx & E1 & Eg).
  unfold remove, remove_impl in E. destruct (key_to_ref T p) as [[[[st lid] off]|]| | | |]; [|done..]. rewrite obind_Ok in E.
  destruct (remove_by_ref T st lid off) as [[kv T1]| | | |] eqn:Er; [|done..]. rewrite !obind_Ok in E. injection E as _ ->.
  unfold remove_by_ref in Er. destruct (get_leaf (t_store T) lid); [|done..]. rewrite obind_Ok in Er.
  destruct (leaf_try_delete_at _ off) as [[r n]| | | |]; [|done..]. rewrite obind_Ok in Er.
  destruct (remove_ascend _ _ _ _) as [[[r1 s1] st1]| | | |]; [|done..]. rewrite obind_Ok in Er.
  match type of Er with obind ?e _ = _ => destruct e as [[[kv' root] s]| | | |]; [|done..] end. rewrite obind_Ok in Er.
  destruct (new_augmentation_for_id s root) as [a| | | |] eqn:Ea; [|done..]. rewrite obind_Ok in Er.
  destruct (usize_pred (t_len T)) as [len| | | |]; [|done..]. rewrite obind_Ok in Er. injection Er as _ <-. simpl in *.
  rewrite E1 in Ea. simpl in Ea. rewrite Eg, obind_Ok in Ea. by injection Ea as <-.
Qed.
End Edge.
