(** A user's search, whatever it answers. *)
From stdpp Require Import list sorting.
From Verif Require Import Base Slots BinSearch LeafNode InnerNode Store Tree Remove Iterators Augment BulkLoad History
  View FollowSpec SlotLemmas NodeLemmas Spec SearchSpec Order Logical Descent InsertProof InvLemmas InsertTop
  RemoveLeaf RemoveInner RemoveProof RemoveTop Lookup RefProof AugProof ViewProof IterProof IntoProof HistProof HistTop AugTop ShapeTop OrphanReach.

(** ** Removing at a place where a leaf has nothing *)
Section Hollow.
Context {K V A : Type} {KO : KeyOps K} {PF : Profile} {AO : AugOps K V A}.
Notation tree := (tree K V A).
Notation store := (store K V A).

Definition hollow (off : nat) (n : leaf K V) : Prop := l_size n <= off /\ forall k, l_keys n !! off <> Some (Some k).

Ltac step :=
  match goal with
  | |- obind ?e _ <> Ok _ => let E := fresh "E" in destruct e eqn:E; [rewrite obind_Ok|intros [=]..]
  end.

Lemma slice_remove_hollow (T : Type) (s : slots T) n idx x : n <= idx -> slice_remove s n idx <> Ok x.
Proof. intros H. unfold slice_remove. destruct (decide _); [|intros [=]]. rewrite decide_False by lia. destruct dev; intros [=]. Qed.
Lemma slot_take_hollow (T : Type) (s : slots T) idx x : (forall k, s !! idx <> Some (Some k)) -> slot_take s idx <> Ok x.
Proof. intros H. unfold slot_take. destruct (s !! idx) as [[k|]|]; [by destruct (H k)|intros [=]..]. Qed.
Lemma delete_at_hollow n off x : hollow off n -> leaf_delete_at n off <> Ok x.
Proof. intros [H _]. unfold leaf_delete_at. step. by eapply slice_remove_hollow in E. Qed.

Lemma push_front_hollow n off kv x : hollow off n -> leaf_delete_with_push_front n off kv <> Ok x.
Proof.
  intros [_ H]. unfold leaf_delete_with_push_front. destruct (decide _); [|intros [=]]. step. by eapply slot_take_hollow in E.
Qed.
Lemma push_hollow n off kv x : hollow off n -> leaf_delete_with_push n off kv <> Ok x.
Proof. intros [H _]. unfold leaf_delete_with_push. step. by eapply slice_remove_hollow in E. Qed.
Lemma merge_hollow n off lft x : hollow off n -> leaf_merge_right_delete_first lft off n <> Ok x.
Proof. intros [_ H]. unfold leaf_merge_right_delete_first. step. by eapply slot_take_hollow in E. Qed.

Lemma under_size_hollow (s : store) st node cidx off id n x : inner_child_id node cidx = Ok (NLeaf id) ->
  get_leaf s id = Ok n -> leaf_able_to_lend n = false -> hollow off n ->
  handle_leaf_under_size s st node cidx off <> Ok x.
Proof.
  intros Hc Hg Hl Hh. unfold handle_leaf_under_size.
  destruct (decide (0 < cidx)) as [H0|H0].
  - destruct (inner_child_id node (cidx - 1)) as [cp| | | |] eqn:Ecp; [|intros [=]..]. rewrite obind_Ok.
    destruct (leaf_id_unchecked cp) as [lp| | | |] eqn:Elp; [|intros [=]..]. rewrite obind_Ok.
    destruct (get_leaf s lp) as [np| | | |] eqn:Enp; [|intros [=]..]. rewrite !obind_Ok.
    match goal with |- obind ?e _ <> _ => destruct e as [nx| | | |] eqn:En; [|intros [=]..] end. rewrite obind_Ok.
    destruct (choose_fix_action _ nx) as [act| | | |] eqn:E0; [|intros [=]..]. rewrite obind_Ok. destruct act.
    + unfold rotate_right_for_leaf_node. rewrite Ecp, obind_Ok, Elp, obind_Ok.
      replace (cidx - 1 + 1) with cidx by lia. rewrite Hc, obind_Ok. cbn [leaf_id_unchecked]. rewrite obind_Ok, Enp, obind_Ok.
      apply choose_right in E0 as (l1 & [= <-] & Eb). rewrite Eb.
      assert (lp <> id) as Hne by congruence.
      destruct (leaf_pop np) as [[kv lft]| | | |]; [|intros [=]..]. rewrite obind_Ok.
      destruct (leaf_aug lft) as [la| | | |]; [|intros [=]..]. rewrite obind_Ok.
      destruct (inner_set_augmentation _ _ _) as [node'| | | |]; [|intros [=]..]. rewrite obind_Ok.
      assert (get_leaf (put_leaf s lp lft) id = Ok n) as ->.
      { unfold get_leaf, put_leaf in *. simpl. by rewrite list_lookup_insert_ne. }
      rewrite obind_Ok. destruct (leaf_delete_with_push_front n off _) eqn:Et; [by apply push_front_hollow in Et|intros [=]..].
    + unfold rotate_left_for_leaf_node. rewrite Hc, obind_Ok. cbn [leaf_id_unchecked]. rewrite obind_Ok.
      apply choose_left in E0 as (l1 & -> & Eb).
      destruct (inner_child_id node (cidx + 1)) as [cn| | | |] eqn:Ecn; [|intros [=]..]. rewrite obind_Ok.
      destruct (leaf_id_unchecked cn) as [ln| | | |] eqn:Eln; [|intros [=]..]. rewrite obind_Ok.
      destruct (get_leaf s ln) as [nn| | | |] eqn:Enn; [|intros [=]..]. rewrite obind_Ok.
      destruct (decide (cidx < i_size node)); [|done]. rewrite obind_Ok, Eln, obind_Ok, Enn, obind_Ok in En. injection En as <-.
      rewrite Eb. assert (ln <> id) as Hne by congruence.
      destruct (leaf_pop_front nn) as [[kv rgt]| | | |]; [|intros [=]..]. rewrite obind_Ok.
      destruct (leaf_aug rgt) as [la| | | |]; [|intros [=]..]. rewrite obind_Ok.
      destruct (inner_set_augmentation _ _ _) as [node'| | | |]; [|intros [=]..]. rewrite obind_Ok.
      destruct (leaf_data_at rgt 0) as [[nk nv]| | | |]; [|intros [=]..]. rewrite obind_Ok.
      assert (get_leaf (put_leaf s ln rgt) id = Ok n) as ->.
      { unfold get_leaf, put_leaf in *. simpl. by rewrite list_lookup_insert_ne. }
      rewrite obind_Ok. destruct (leaf_delete_with_push n off _) eqn:Et; [by apply push_hollow in Et|intros [=]..].
    + unfold merge_leaf_node_left. rewrite Ecp, obind_Ok, Elp, obind_Ok.
      replace (cidx - 1 + 1) with cidx by lia. rewrite Hc, obind_Ok. cbn [leaf_id_unchecked]. rewrite obind_Ok.
      destruct (take_leaf s id) as [[rgt s']| | | |] eqn:Et; [|intros [=]..]. rewrite obind_Ok.
      assert (rgt = n) as ->. { unfold take_leaf, get_leaf in *. destruct (leaves s !! id) as [[?|]|]; congruence. }
      destruct (get_leaf s' lp) as [lft| | | |]; [|intros [=]..]. rewrite obind_Ok.
      destruct (leaf_merge_right_delete_first lft off n) eqn:Et2; [by apply merge_hollow in Et2|intros [=]..].
    + exfalso. unfold choose_fix_action in E0. repeat case_match; congruence.
  - rewrite obind_Ok. match goal with |- obind ?e _ <> _ => destruct e as [nx| | | |] eqn:En; [|intros [=]..] end. rewrite obind_Ok.
    destruct (choose_fix_action _ nx) as [act| | | |] eqn:E0; [|intros [=]..]. rewrite obind_Ok. destruct act.
    + exfalso. unfold choose_fix_action in E0. repeat case_match; congruence.
    + unfold rotate_left_for_leaf_node. rewrite Hc, obind_Ok. cbn [leaf_id_unchecked]. rewrite obind_Ok.
      apply choose_left in E0 as (l1 & -> & Eb).
      destruct (inner_child_id node (cidx + 1)) as [cn| | | |] eqn:Ecn; [|intros [=]..]. rewrite obind_Ok.
      destruct (leaf_id_unchecked cn) as [ln| | | |] eqn:Eln; [|intros [=]..]. rewrite obind_Ok.
      destruct (get_leaf s ln) as [nn| | | |] eqn:Enn; [|intros [=]..]. rewrite obind_Ok.
      destruct (decide (cidx < i_size node)); [|done]. rewrite obind_Ok, Eln, obind_Ok, Enn, obind_Ok in En. injection En as <-.
      rewrite Eb. assert (ln <> id) as Hne by congruence.
      destruct (leaf_pop_front nn) as [[kv rgt]| | | |]; [|intros [=]..]. rewrite obind_Ok.
      destruct (leaf_aug rgt) as [la| | | |]; [|intros [=]..]. rewrite obind_Ok.
      destruct (inner_set_augmentation _ _ _) as [node'| | | |]; [|intros [=]..]. rewrite obind_Ok.
      destruct (leaf_data_at rgt 0) as [[nk nv]| | | |]; [|intros [=]..]. rewrite obind_Ok.
      assert (get_leaf (put_leaf s ln rgt) id = Ok n) as ->.
      { unfold get_leaf, put_leaf in *. simpl. by rewrite list_lookup_insert_ne. }
      rewrite obind_Ok. destruct (leaf_delete_with_push n off _) eqn:Et; [by apply push_hollow in Et|intros [=]..].
    + exfalso. unfold choose_fix_action in E0. repeat case_match; congruence.
    + unfold merge_leaf_node_with_right. rewrite Hc, obind_Ok. cbn [leaf_id_unchecked]. rewrite obind_Ok.
      destruct (inner_child_id node (cidx + 1)) as [cn| | | |]; [|intros [=]..]. rewrite obind_Ok.
      destruct (leaf_id_unchecked cn) as [ln| | | |]; [|intros [=]..]. rewrite obind_Ok.
      destruct (take_leaf s ln) as [[rgt s']| | | |] eqn:Et; [|intros [=]..]. rewrite obind_Ok.
      destruct (get_leaf s' id) as [lft| | | |] eqn:Eg; [|intros [=]..]. rewrite obind_Ok.
      assert (lft = n) as ->.
      { unfold take_leaf in Et. destruct (leaves s !! ln) as [[?|]|] eqn:Eln; [|done..]. injection Et as <- <-.
        unfold get_leaf in *. simpl in Eg. destruct (decide (ln = id)) as [->|Hne].
        - rewrite list_lookup_insert in Eg; [done|]. by eapply lookup_lt_Some.
        - rewrite list_lookup_insert_ne in Eg by done. destruct (leaves s !! id) as [[?|]|]; congruence. }
      destruct (leaf_delete_at n off) eqn:Et2; [by apply delete_at_hollow in Et2|intros [=]..].
Qed.

(** The path to a leaf ends at the leaf. *)
Definition path_to (T : tree) (st : visit_stack) (id : nat) : Prop :=
  match st with
  | [] => t_root T = NLeaf id
  | (pid, cidx, _) :: _ => exists p, get_inner (t_store T) pid = Ok p /\ inner_child_id p cidx = Ok (NLeaf id)
  end.
Lemma remove_hollow (T : tree) st id n off x : path_to T st id -> get_leaf (t_store T) id = Ok n -> hollow off n ->
  remove_by_ref T st id off <> Ok x.
Proof.
  intros Hp Hg Hh. unfold remove_by_ref. rewrite Hg, obind_Ok. unfold leaf_try_delete_at.
  destruct (leaf_able_to_lend n) eqn:Eb.
  { destruct (leaf_delete_at n off) eqn:Et; [by apply delete_at_hollow in Et|intros [=]..]. }
  rewrite obind_Ok.
  assert (put_leaf (t_store T) id n = t_store T) as ->.
  { unfold put_leaf, get_leaf in *. destruct (leaves (t_store T) !! id) as [[n'|]|] eqn:E; [|done..]. injection Hg as ->.
    rewrite list_insert_id by done. by destruct (t_store T). }
  destruct st as [|[[pid cidx] cid] st]; cbn [remove_ascend].
  - rewrite obind_Ok, Hp. cbn [leaf_id_unchecked]. rewrite obind_Ok, Hg, obind_Ok.
    destruct (leaf_delete_at n off) eqn:Et; [by apply delete_at_hollow in Et|intros [=]..].
  - destruct Hp as (p & E1 & E2). rewrite E1, obind_Ok.
    destruct (handle_leaf_under_size _ _ p cidx off) eqn:Eu; [by eapply under_size_hollow in Eu|intros [=]..].
Qed.

Context {Q : Type} {SO : SearchOps K V A Q}.
Lemma loop_path (T : tree) fuel node q st0 st id off :
  ref_by_aug_loop fuel (t_store T) node q st0 = Ok (Some (st, id, off)) ->
  (forall id', node = NLeaf id' -> path_to T st0 id') -> path_to T st id.
Proof.
  revert node q st0. induction fuel as [|fuel IH]; intros [pid|lid] q st0; cbn [ref_by_aug_loop]; [done| | |].
  2: { destruct (get_inner (t_store T) pid) as [p| | | |] eqn:Ep; [|done..]. rewrite obind_Ok.
    destruct (inner_keys p) as [ks| | | |]; [|done..]. rewrite obind_Ok.
    destruct (inner_augmentations p) as [aus| | | |]; [|done..]. rewrite obind_Ok.
    destruct (locate_in_inner q ks aus) as [[i q']|]; [|done].
    destruct (inner_child_id p i) as [c| | | |] eqn:Ec; [|done..]. rewrite obind_Ok.
    unfold stack_push. destruct (decide _); [|done]. rewrite obind_Ok. intros E Hn. eapply IH; [exact E|].
    intros id' ->. by exists p. }
  all: destruct (get_leaf (t_store T) lid) as [n| | | |]; [|done..]; rewrite obind_Ok;
    destruct (leaf_keys n) as [ks| | | |]; [|done..]; rewrite obind_Ok;
    destruct (leaf_values n) as [vs| | | |]; [|done..]; rewrite obind_Ok;
    destruct (locate_in_leaf q ks vs) as [slot|]; [|done]; intros [= <- <- <-] Hn; by apply Hn.
Qed.
End Hollow.

Section FollowProof.
Context {K V A : Type} {KO : KeyOps K} {PF : Profile} {OL : OrdLaws K} {AO : AugOps K V A}.
Notation tr := (tr K V).
Notation tree := (tree K V A).
Context {Q : Type} {SO : SearchOps K V A Q}.

Lemma mk_leaf_hollow (kvs : list (K * V)) pv nx off : length kvs <= 64 -> length kvs <= off -> hollow off (mk_leaf kvs pv nx).
Proof.
  intros H1 H2. split; [done|]. intros k. simpl. unfold mk_slots. rewrite lookup_app_r by (rewrite map_length, keysof_length; done).
  destruct (_ !! _) as [o|] eqn:E; [|done]. apply elem_of_list_lookup_2 in E. unfold slots_empty in E.
  apply elem_of_list_In, repeat_spec in E. congruence.
Qed.
Lemma slot_get_outside {T} cap (l : list T) i : length l <= i -> slot_get (mk_slots cap l) i = UB.
Proof.
  intros H. unfold slot_get, mk_slots. rewrite lookup_app_r by (rewrite map_length; done).
  destruct (_ !! _) as [o|] eqn:E; [|done]. apply elem_of_list_lookup_2 in E. unfold slots_empty in E.
  apply elem_of_list_In, repeat_spec in E. by subst.
Qed.

Lemma ref_follow (SYNC : Prop) rl ri (T : tree) h m b (t : tr) q fuel st0 (s := t_store T) :
  irep SYNC (inners s) h t -> nshape rl ri m b h t -> Forall (lvok (leaves s)) (leaf_seq t) ->
  h <= fuel -> h + length st0 <= MAX_DEPTH ->
  match follow (held T) (of_tr t) q with
  | Nothing => ref_by_aug_loop fuel s (nid t) q st0 = Ok None
  | Entry j => exists id kvs mA mB s1 s2 st off, reach t id kvs mA mB s1 s2 st /\
      ref_by_aug_loop fuel s (nid t) q st0 = Ok (Some (st ++ st0, id, off)) /\ off < length kvs /\ j = length (elems mA) + off
  | Outside => ref_by_aug_loop fuel s (nid t) q st0 = UB \/
      exists st id off kvs pv nx, ref_by_aug_loop fuel s (nid t) q st0 = Ok (Some (st, id, off)) /\
        get_leaf s id = Ok (mk_leaf kvs pv nx) /\ length kvs <= 64 /\ length kvs <= off
  end.
Proof.
  revert m b t q fuel st0. induction h as [|h IH]; intros m b [id kvs|id ks ch] q fuel st0 Hi Hn Hl Hf Hd; try done.
  - apply Forall_cons in Hl as [(p & n & El & Hz) _]. simpl in El, Hz.
    assert (ref_by_aug_loop fuel s (nid (TLeaf id kvs)) q st0 =
      match locate_in_leaf (A:=A) q (keysof kvs) (valsof kvs) with None => Ok None | Some slot => Ok (Some (st0, id, slot)) end) as Er.
    { destruct fuel; cbn [ref_by_aug_loop nid]; unfold get_leaf; rewrite El, obind_Ok, leaf_keys_mk by done;
        rewrite obind_Ok, leaf_values_mk by done; rewrite obind_Ok; done. }
    cbn [of_tr follow]. change (map fst kvs) with (keysof kvs). change (map snd kvs) with (valsof kvs).
    destruct (locate_in_leaf (A:=A) q (keysof kvs) (valsof kvs)) as [j|]; [|done].
    destruct (decide (j < length kvs)) as [Hj|Hj].
    + exists id, kvs, [], [], [], [], [], j. split_and!; [constructor|done|done|done].
    + right. exists st0, id, j, kvs, p, n. split; [done|]. split; [unfold get_leaf; by rewrite El|]. lia.
  - destruct fuel as [|fuel]; [lia|]. destruct Hi as [Hnr Hi]. destruct Hn as (Hk & Hc & Hs).
    destruct (node_rep_fits _ _ _ _ _ Hnr (proj2 Hk) Hc) as (aus & E & Hfit & Ha).
    cbn [ref_by_aug_loop nid]. unfold get_inner. rewrite E, obind_Ok, inner_keys_mk by done.
    rewrite obind_Ok, inner_augmentations_mk by done. rewrite obind_Ok.
    cbn [of_tr follow]. assert (held T id = aus) as ->.
    { unfold held, get_inner. fold s. by rewrite E, inner_augmentations_mk. }
    destruct (locate_in_inner (V:=V) q ks aus) as [[i q']|]; [|done].
    destruct (decide (i < length ch)) as [Hi'|Hi'].
    2: { rewrite nth_overflow by (rewrite !map_length; lia). cbn [later]. left. unfold inner_child_id. simpl.
      by rewrite slot_get_outside by (rewrite map_length; lia). }
    destruct (lookup_lt_is_Some_2 ch i ltac:(lia)) as [c Hci].
    destruct (elem_of_list_split_length _ _ _ Hci) as (cl & cr & -> & ->).
    assert (exists kl kr, ks = kl ++ kr /\ length kl = length cl /\ length kr = length cr) as (kl & kr & -> & L1 & L2).
    { exists (take (length cl) ks), (drop (length cl) ks). rewrite take_drop, take_length, drop_length.
      rewrite app_length in Hc. simpl in Hc. split_and!; [done|lia|lia]. }
    rewrite inner_child_id_mk with (c := nid c); [|by rewrite map_app; simpl; apply lookup_middle'; rewrite map_length].
    rewrite obind_Ok. unfold stack_push. rewrite decide_True by lia. rewrite obind_Ok.
    apply Forall_app in Hi as [_ Hi]. apply Forall_cons in Hi as [Hi _].
    apply chs_app in Hs as (_ & Hs & _).
    assert (Forall (lvok (leaves s)) (leaf_seq c)) as Hlc.
    { change (leaf_seq (TNode id (kl ++ kr) (cl ++ c :: cr))) with (concat (map leaf_seq (cl ++ c :: cr))) in Hl.
      rewrite map_app, concat_app in Hl. apply Forall_app in Hl as [_ Hl]. simpl in Hl. by apply Forall_app in Hl as [Hl _]. }
    pose proof (IH _ _ c q' fuel ((id, length cl, nid c) :: st0) Hi (proj1 (shape_nshape _ _ _ _ _) Hs) Hlc ltac:(lia) ltac:(simpl; lia)) as HIH.
    rewrite !map_app. rewrite map_map, app_nth2 by (rewrite map_length; lia). rewrite map_length, Nat.sub_diag. cbn [map nth].
    rewrite take_app_alt by (by rewrite map_length). rewrite map_map.
    assert (length (concat (map (fun x => view_entries (of_tr x)) cl)) = length (elems (zl cl kl))) as ->.
    { rewrite elems_zl by done. f_equal. f_equal. apply map_ext. intros y. apply of_tr_entries. }
    destruct (follow (held T) (of_tr c) q') as [|j|]; cbn [later].
    + exact HIH.
    + destruct HIH as (id' & kvs & mA & mB & s1 & s2 & st & off & Rc & Er & Ho & ->).
      exists id', kvs, (zl cl kl ++ mA), (mB ++ zr kr cr). eexists _, _, (st ++ [(id, length cl, nid c)]), off.
      split; [by constructor|]. rewrite Er. split; [by rewrite <- app_assoc|]. split; [done|]. rewrite elems_app, app_length. lia.
    + exact HIH.
Qed.

Lemma follow_ok b (T : tree) l w q : reachable b T l -> tree_shows T w ->
  match follow (held T) w q with
  | Nothing => get_by_augmentation T q = Ok None /\ (forall f, get_mut_by_augmentation T q f = Ok (None, T)) /\
      remove_by_augmentation T q = Ok (None, T)
  | Entry j => exists k v, l !! j = Some (k, v) /\ get_by_augmentation T q = Ok (Some (k, v)) /\
      (forall f, exists T', get_mut_by_augmentation T q f = Ok (Some v, T') /\ reachable b T' (<[j := (k, f v)]> l)) /\
      (drop_ok (A:=A) l ->
       (exists T', remove_by_augmentation T q = Ok (Some (k, v), T') /\ reachable b T' (delete j l)) \/
       ~ orphan_free (length (spec_begin b)) /\
       (remove_by_augmentation T q = Panic \/ dev = false /\ remove_by_augmentation T q = UB))
  | Outside => get_by_augmentation T q = UB /\ (forall f, get_mut_by_augmentation T q f = UB) /\
      forall r, remove_by_augmentation T q <> Ok r
  end.
Proof.
  intros Hr Hw. destruct (reachable_any False b T l Hr) as (ri & h & t & Hlow & Hri & HI & Hf & Ha & Hof & Hh); [done|].
  assert (Forall (lvok (leaves (t_store T))) (leaf_seq t)) as Hlv.
  { apply lrep_lvok'; [apply HI|]. eapply nshape_segs. apply HI. }
  destruct (inv_shows (low b) ri False T h t HI) as (H1 & _). rewrite (tree_shows_fun T w (of_tr t)) by done.
  pose proof (ref_follow False (low b) ri T h _ _ t q (descend_fuel (t_store T)) []
      (inv_irep _ _ _ _ _ _ HI) (inv_shape _ _ _ _ _ _ HI) Hlv (fuel_inv (low b) ri False T h t HI) ltac:(simpl; lia)) as HF.
  rewrite <- (inv_root _ _ _ _ _ _ HI) in HF. change (ref_by_aug_loop _ _ _ q []) with (get_ref_by_augmentation T q) in HF.
  destruct (follow (held T) (of_tr t) q) as [|j|].
  - unfold get_by_augmentation, get_mut_by_augmentation, remove_by_augmentation. rewrite HF. done.
  - destruct HF as (id & kvs & mA & mB & s1 & s2 & st & off & R & E & Ho & Ej).
    assert (found b T l q j) as Hj.
    { rewrite app_nil_r in E. exists False, ri, h, t, id, kvs, mA, mB, s1, s2, st, off. do 9 (split; [done|]). done. }
    destruct (found_get _ _ _ _ _ Hj) as ([k v] & El & Eg). exists k, v. split_and!; [done|done| |].
    + intros f. destruct (found_get_mut _ _ _ _ _ f Hr Hj) as (k' & v' & T' & E' & Em & Hr').
      rewrite El in E'. injection E' as <- <-. by exists T'.
    + intros Hrm. destruct (found_remove_gen _ _ _ _ _ Hr Hrm Hj) as [(kv & T' & E' & Em & Hr')|(Hno & _ & Es)].
      * left. rewrite El in E'. injection E' as <-. by exists T'.
      * by right.
  - unfold get_by_augmentation, get_mut_by_augmentation, remove_by_augmentation.
    destruct HF as [E|(st & id & off & kvs & pv & nx & E & Eg & Hz & Ho)]; [rewrite E; done|].
    rewrite E, obind_Ok. split_and!.
    + rewrite Eg, obind_Ok. unfold leaf_data_at. simpl. rewrite slot_get_outside; [done|]. by rewrite keysof_length.
    + intros f. rewrite obind_Ok, Eg, obind_Ok. unfold leaf_value_at_mut. simpl. rewrite slot_get_outside; [done|]. by rewrite valsof_length.
    + intros r. rewrite obind_Ok. destruct (remove_by_ref T st id off) as [[kv T']| | | |] eqn:Er; try done. exfalso.
      eapply remove_hollow; [|exact Eg|by apply mk_leaf_hollow|exact Er].
      eapply (loop_path T _ _ q []); [exact E|]. intros id' Hid. exact Hid.
Qed.
Lemma search_remove_gen b (T : tree) l q r : reachable b T l -> drop_ok (A:=A) l -> get_by_augmentation T q = Ok r ->
  match r with
  | None => remove_by_augmentation T q = Ok (None, T)
  | Some kv =>
      (exists j T', l !! j = Some kv /\ remove_by_augmentation T q = Ok (Some kv, T') /\ reachable b T' (delete j l)) \/
      ~ orphan_free (length (spec_begin b)) /\
      (remove_by_augmentation T q = Panic \/ dev = false /\ remove_by_augmentation T q = UB)
  end.
Proof.
  intros Hr Hd E. destruct (reachable_any False b T l Hr) as (ri & h & t & _ & _ & HI & _); [done|].
  destruct (inv_shows (low b) ri False T h t HI) as (Hw & _). set (w := of_tr t) in Hw. pose proof (follow_ok b T l w q Hr Hw) as H.
  destruct (follow (held T) w q) as [|j|].
  - destruct H as (E1 & _ & E2). rewrite E1 in E. by injection E as <-.
  - destruct H as (k & v & El & E1 & _ & H). rewrite E1 in E. injection E as <-.
    destruct (H Hd) as [(T' & E2 & Hr')|H2]; [left; by exists j, T'|by right].
  - destruct H as (E1 & _). congruence.
Qed.
End FollowProof.
