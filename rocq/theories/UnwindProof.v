(** Interrupted updates: without a panic they are the updates of Tree.v and
    Remove.v; what an interrupted one leaves behind. *)
From stdpp Require Import list sorting.
From Verif Require Import Base Slots BinSearch LeafNode InnerNode Store Tree Remove Unwind
  SlotLemmas NodeLemmas Spec AnySpec Order Logical Descent InsertProof InvLemmas InsertTop
  RemoveLeaf RemoveInner RemoveProof RemoveTop Lookup UnwindSpec.

(** ** Erasing the count *)
Section Erase.
Context {K V A : Type} {KO : KeyOps K} {PF : Profile} {AO : AugOps K V A}.

Definition agrees {X S} (u : outcome (fin X S)) (o : outcome X) : Prop :=
  match u with
  | Ok (Fin x _) => o = Ok x
  | Ok (Unw _) => True
  | _ => forall x, o <> Ok x
  end.

Lemma agrees_obind {X Y S} (o : outcome X) (f : X -> outcome (fin Y S)) g :
  (forall x, o = Ok x -> agrees (f x) (g x)) -> agrees (obind o f) (obind o g).
Proof. destruct o; simpl; auto. Qed.
Lemma agrees_ubind {X Y S} (u : outcome (fin X S)) o (f : X -> nat -> outcome (fin Y S)) g :
  agrees u o -> (forall x n, agrees (f x n) (g x)) -> agrees (ubind u f) (obind o g).
Proof.
  destruct u as [[x n|s]| | | |]; simpl; intros H Hf; [by rewrite H; apply Hf|done|..];
    (destruct o; [by destruct (H x)|done..]).
Qed.
Lemma agrees_call {B S} n (s : S) (e : outcome B) : agrees (aug_call n s e) e.
Proof. destruct e, n; simpl; done. Qed.
Lemma agrees_Ok {X S} (x : X) n : agrees (S:=S) (Ok (Fin x n)) (Ok x).
Proof. done. Qed.
Lemma agrees_not {X Y S} (o : outcome X) : (forall x, o <> Ok x) -> agrees (X:=Y) (S:=S) UB UB.
Proof. done. Qed.

Ltac ag := repeat first
  [ apply agrees_Ok
  | done
  | apply agrees_call
  | progress cbv zeta
  | match goal with |- agrees (obind _ _) (obind _ _) => apply agrees_obind; intros end
  | match goal with |- agrees (ubind _ _) (obind _ _) => apply agrees_ubind; [|intros] end
  | match goal with |- agrees (match ?x with _ => _ end) _ => destruct x end ].

Lemma u_insert_ascend_agrees n stack s (r : insert_result K V) :
  agrees (u_insert_ascend (A:=A) n stack s r) (insert_ascend stack s r).
Proof.
  revert n s r. induction stack as [|[[id off] c] stack IH]; intros n s r; [done|].
  cbn [u_insert_ascend insert_ascend]. destruct r; ag; apply IH.
Qed.

Lemma u_insert_agrees n (t : tree K V A) k v : agrees (u_insert n t k v) (insert t k v).
Proof.
  unfold u_insert, insert.
  assert (agrees (u_descend_insert n (t_store t) (t_root t) k v) (descend_insert (t_store t) (t_root t) k v)) as H.
  { unfold u_descend_insert, descend_insert. destruct (t_root t).
    - unfold u_insert_inner, insert_inner. ag. apply u_insert_ascend_agrees.
    - destruct (insert_leaf _ _ _ _) as [?| | | |]; simpl; done. }
  destruct (u_descend_insert _ _ _ _ _) as [[[r s] m|s]| | | |]; simpl in H.
  - rewrite H. cbn [obind]. destruct r; ag.
    unfold inner_aug. destruct (inner_keys _); simpl; try done. destruct (inner_augmentations _); simpl; try done.
    destruct n1; simpl; done.
  - done.
  - simpl. destruct (descend_insert _ _ _ _); [by destruct (H x)|done..].
  - simpl. destruct (descend_insert _ _ _ _); [by destruct (H x)|done..].
  - simpl. destruct (descend_insert _ _ _ _); [by destruct (H x)|done..].
  - simpl. destruct (descend_insert _ _ _ _); [by destruct (H x)|done..].
Qed.

Lemma u_merge_inner_agrees n s st pid (node : inner K A) slot :
  agrees (u_merge_inner (V:=V) n s st pid node slot) (merge_inner_node s node slot).
Proof.
  unfold u_merge_inner, merge_inner_node. destruct (decide _); [|destruct dev; [done|]]; ag; destruct n.
  all: try (destruct (inner_drop _ _); simpl; try done;
      (intros y; destruct (inner_set_augmentation _ _ _); simpl; done)).
  all: simpl; ag.
Qed.

Lemma u_handle_inner_agrees n s st pid (node : inner K A) i (kv : K * V) :
  agrees (u_handle_inner n s st pid node i kv) (handle_inner_under_size s st node i kv).
Proof.
  unfold u_handle_inner, handle_inner_under_size.
  apply agrees_ubind.
  { destruct (decide _); [|done]. unfold u_rotate_right_inner, try_rotate_right_for_inner_node. ag. }
  intros [[b1 s1] n1] m1. destruct b1; [done|]. apply agrees_ubind.
  { destruct (decide _); [|done]. unfold u_rotate_left_inner, try_rotate_left_for_inner_node. ag. }
  intros [[b2 s2] n2] m2. destruct b2; [done|].
  destruct (if decide (0 < i) then _ else _) as [ms st']. apply agrees_ubind.
  { apply u_merge_inner_agrees. }
  intros [[r3 s3] n3] m3. by destruct r3.
Qed.

Lemma u_handle_leaf_agrees n s st pid (node : inner K A) i j :
  agrees (u_handle_leaf (V:=V) n s st pid node i j) (handle_leaf_under_size s st node i j).
Proof.
  unfold u_handle_leaf, handle_leaf_under_size.
  unfold u_rotate_right_leaf, rotate_right_for_leaf_node, u_rotate_left_leaf, rotate_left_for_leaf_node,
    u_merge_leaf_left, merge_leaf_node_left, u_merge_leaf_right, merge_leaf_node_with_right.
  ag.
Qed.

Lemma u_remove_ascend_agrees n stack s st (r : delete_result K V) :
  agrees (u_remove_ascend (A:=A) n stack s st r) (remove_ascend stack s st r).
Proof.
  revert n s st r. induction stack as [|[[id off] c] stack IH]; intros n s st r; [done|].
  cbn [u_remove_ascend remove_ascend]. destruct r.
  - ag; apply IH.
  - apply agrees_obind; intros. apply agrees_ubind; [apply u_handle_inner_agrees|].
    intros [[[? ?] ?] ?] ?. apply IH.
  - apply agrees_obind; intros. apply agrees_ubind; [apply u_handle_leaf_agrees|].
    intros [[[? ?] ?] ?] ?. apply IH.
Qed.

Lemma u_remove_agrees n (t : tree K V A) p : agrees (u_remove n t p) (remove t p).
Proof.
  unfold u_remove, remove, remove_impl.
  destruct (key_to_ref t p) as [[[[stack lid] off]|]| | | |]; simpl; try done.
  unfold u_remove_by_ref, remove_by_ref.
  destruct (get_leaf _ _) as [nd| | | |]; simpl; try done.
  destruct (leaf_try_delete_at _ _) as [[r nd']| | | |]; simpl; try done.
  match goal with |- context [u_remove_ascend n ?a ?b ?c ?d] =>
    pose proof (u_remove_ascend_agrees n a b c d) as H;
    destruct (u_remove_ascend n a b c d) as [[[[r1 s1] st1] m|[s1 st1]]| | | |];
    destruct (remove_ascend a b c d) as [[[r2 s2] st2]| | | |]; simpl in H |- *; try done;
    try (by destruct (H _ eq_refl)) end.
  injection H as -> -> ->.
  match goal with |- context [obind (match r1 with DrDone kv1 => @?f kv1 | DrInnerUnderSize kv2 => @?g kv2 | DrLeafUnderSize i => @?h i end) _] =>
    set (o := match r1 with DrDone kv1 => f kv1 | DrInnerUnderSize kv2 => g kv2 | DrLeafUnderSize i => h i end) end.
  destruct o as [[[kv root] s]| | | |]; simpl; try done.
  destruct (new_augmentation_for_id _ _); simpl; try done.
  destruct m; simpl; [done|].
  destruct (usize_pred _); simpl; done.
Qed.

(** An interrupted ascent has done the levels below the interruption, and
    nothing else. *)
Lemma u_insert_ascend_unw n stack s (r : insert_result K V) s' :
  u_insert_ascend (A:=A) n stack s r = Ok (Unw s') ->
  exists st1 st2 r', stack = st1 ++ st2 /\ insert_ascend st1 s r = Ok (r', s').
Proof.
  revert n s r. induction stack as [|[[id off] c] stack IH]; intros n s r; [done|].
  cbn [u_insert_ascend]. intros H.
  assert (s' = s -> exists st1 st2 r', (id, off, c) :: stack = st1 ++ st2 /\ insert_ascend st1 s r = Ok (r', s')) as H0.
  { intros ->. by exists [], ((id, off, c) :: stack), r. }
  unfold ubind, aug_call in H. destruct r as [v| |key rc].
  - destruct (new_augmentation_for_id s c) as [ca| | | |] eqn:E1; simpl in H; try done.
    destruct n; simpl in H; [injection H as <-; by apply H0|].
    destruct (get_inner s id) as [nd| | | |] eqn:E2; simpl in H; try done.
    destruct (inner_set_augmentation nd off ca) as [nd'| | | |] eqn:E3; simpl in H; try done.
    apply IH in H as (st1 & st2 & r' & -> & E). exists ((id, off, c) :: st1), st2, r'. split; [done|].
    cbn [insert_ascend]. rewrite E1. cbn [obind]. rewrite E2. cbn [obind]. rewrite E3. done.
  - destruct (new_augmentation_for_id s c) as [ca| | | |] eqn:E1; simpl in H; try done.
    destruct n; simpl in H; [injection H as <-; by apply H0|].
    destruct (get_inner s id) as [nd| | | |] eqn:E2; simpl in H; try done.
    destruct (inner_set_augmentation nd off ca) as [nd'| | | |] eqn:E3; simpl in H; try done.
    apply IH in H as (st1 & st2 & r' & -> & E). exists ((id, off, c) :: st1), st2, r'. split; [done|].
    cbn [insert_ascend]. rewrite E1. cbn [obind]. rewrite E2. cbn [obind]. rewrite E3. done.
  - destruct (new_augmentation_for_id s rc) as [ra| | | |] eqn:E0; simpl in H; try done.
    destruct n; simpl in H; [injection H as <-; by apply H0|].
    destruct (new_augmentation_for_id s c) as [ca| | | |] eqn:E1; simpl in H; try done.
    destruct n; simpl in H; [injection H as <-; by apply H0|].
    destruct (get_inner s id) as [nd| | | |] eqn:E2; simpl in H; try done.
    destruct (inner_set_augmentation nd off ca) as [nd'| | | |] eqn:E3; simpl in H; try done.
    destruct (negb (inner_is_full nd')) eqn:E4.
    + destruct (inner_insert_at _ _ _ _ _) as [nd2| | | |] eqn:E5; simpl in H; try done.
      apply IH in H as (st1 & st2 & r' & -> & E). exists ((id, off, c) :: st1), st2, r'. split; [done|].
      cbn [insert_ascend]. rewrite E0. cbn [obind]. rewrite E1. cbn [obind]. rewrite E2. cbn [obind]. rewrite E3.
      cbn [obind]. rewrite E4, E5. done.
    + destruct (inner_split _ _ _ _ _) as [[[pk new] nd2]| | | |] eqn:E5; simpl in H; try done.
      apply IH in H as (st1 & st2 & r' & -> & E). exists ((id, off, c) :: st1), st2, r'. split; [done|].
      cbn [insert_ascend]. rewrite E0. cbn [obind]. rewrite E1. cbn [obind]. rewrite E2. cbn [obind]. rewrite E3.
      cbn [obind]. rewrite E4, E5. done.
Qed.

End Erase.


(** ** An interrupted insertion *)
Section Insert.
Context {K V A : Type} {KO : KeyOps K} {PF : Profile} {OM : OrdMode} {OI : OrdIf K} {AO : AugOps K V A}.
Notation tr := (tr K V).
Notation tree := (tree K V A).
Notation mark := (K * option V)%type.
Notation seg := (nat * list (K * V))%type.
Context (rl ri : nat) (Hrl : rl <= 16) (Hri : ri <= 16).
Notation irep := (irep False).

(** The tree [t1] that is left of [t]: the marks and leaves of the finished
    insertion without a middle part. *)
Definition left_over (m : nat) (b : bool) (h : nat) (t : tr) (marks : list mark) (segs : list seg)
    (s s' : store K V A) (r : insert_result K V) : Prop :=
  length (inners s) <= length (inners s') /\
  (forall i, i < length (inners s) -> i ∉ inner_ids t -> inners s' !! i = inners s !! i) /\
  exists t1 x y z sx sy sz, nid t1 = nid t /\ irep (inners s') h t1 /\ nshape rl ri m b h t1 /\
    marks = x ++ y ++ z /\ trav t1 = x ++ z /\
    segs = sx ++ sy ++ sz /\ leaf_seq t1 = sx ++ sz /\
    (forall i, i ∈ inner_ids t1 -> i ∈ inner_ids t \/ length (inners s) <= i) /\ NoDup (inner_ids t1) /\
    ((forall k c, r <> IrSplit k c) -> y = []).

Lemma shape_any b h (t : tr) : shape rl ri false h t -> shape rl ri b h t.
Proof.
  destruct b; [|done]. revert t. induction h as [|h IH]; intros [id kvs|id ks ch]; simpl; try done; [lia|].
  intros (H1 & H2 & H3). split_and!; [lia|lia|done|].
  revert H3. clear H1 H2. induction ch as [|c [|c' ch] IHc]; simpl; [done|auto|].
  intros [X1 X2]. split; [done|]. by apply IHc.
Qed.

Lemma nshape_any m b h (t : tr) : m <= 16 -> shape rl ri false h t -> nshape rl ri m b h t.
Proof.
  intros Hm Hs. destruct h as [|h], t as [id kvs|id ks ch]; simpl in *; try done; [lia|].
  destruct Hs as (H1 & H2 & H3). split_and!; [lia|lia|done|].
  assert (shape rl ri b (S h) (TNode id ks ch)) as H by (apply shape_any; simpl; auto). apply H.
Qed.

Lemma insert_post_left m b h (t : tr) marks segs (s s' : store K V A) r :
  m <= 16 -> NoDup (inner_ids t) -> irep (inners s) h t ->
  insert_post rl ri False m b h t marks segs s s' r -> left_over m b h t marks segs s s' r.
Proof.
  intros Hm Hnd Hr (Hle & Hfr & Hpost). split; [done|]. split; [done|].
  assert (NoDup (inner_ids t ++ fresh (length (inners s)) (length (inners s')))) as Hnd2.
  { apply NoDup_fresh; [done|]. intros i Hi. by eapply irep_lt. }
  assert (forall i, i ∈ inner_ids t ++ fresh (length (inners s)) (length (inners s')) -> i ∈ inner_ids t \/ length (inners s) <= i) as Hin.
  { intros i. rewrite elem_of_app, elem_of_fresh. intros [?|?]; [by left|right; lia]. }
  assert ((exists t', nid t' = nid t /\ irep (inners s') h t' /\ nshape rl ri m b h t' /\
      trav t' = marks /\ leaf_seq t' = segs /\
      inner_ids t' ≡ₚ inner_ids t ++ fresh (length (inners s)) (length (inners s'))) ->
    exists t1 x y z sx sy sz, nid t1 = nid t /\ irep (inners s') h t1 /\ nshape rl ri m b h t1 /\
    marks = x ++ y ++ z /\ trav t1 = x ++ z /\
    segs = sx ++ sy ++ sz /\ leaf_seq t1 = sx ++ sz /\
    (forall i, i ∈ inner_ids t1 -> i ∈ inner_ids t \/ length (inners s) <= i) /\ NoDup (inner_ids t1) /\
    ((forall k c, r <> IrSplit k c) -> y = [])) as Hns.
  { intros (t' & H1 & H2 & H3 & H4 & H5 & H6). exists t', marks, [], [], segs, [], []. rewrite !app_nil_r.
    split_and!; try done.
    - intros i Hi. apply Hin. by rewrite <- H6.
    - by rewrite H6. }
  destruct r as [v| |key c]; [by apply Hns|by apply Hns|].
  destruct Hpost as (t1 & t2 & H1 & -> & H2 & H3 & H4 & H5 & H6 & H7 & H8).
  exists t1, (trav t1), ((key, None) :: trav t2), [], (leaf_seq t1), (leaf_seq t2), []. rewrite !app_nil_r.
  split_and!; try done.
  - by apply nshape_any.
  - intros i Hi. apply Hin. rewrite <- H8. apply elem_of_app. by left.
  - rewrite <- H8 in Hnd2. by apply NoDup_app in Hnd2 as [? _].
  - intros H. by destruct (H key (nid t2)).
Qed.

Lemma insert_prefix t id kvs mA mB s1 s2 st : reach t id kvs mA mB s1 s2 st ->
  forall h m b (s : store K V A) r kvs' M L rid,
  m <= 16 -> irep (inners s) h t -> nshape rl ri m b h t -> NoDup (inner_ids t) ->
  length kvs <= length kvs' -> leaf_res id kvs' r M L rid ->
  Forall (lvok (leaves s)) (s1 ++ L ++ s2) ->
  forall st1 st2, st = st1 ++ st2 ->
  exists s' r', insert_ascend st1 s r = Ok (r', s') /\ leaves s' = leaves s /\
    left_over m b h t (mA ++ M ++ mB) (s1 ++ L ++ s2) s s' r.
Proof.
  induction 1 as [id kvs|nid' kl kr cl c cr id kvs mA mB s1 s2 st L1 L2 Hreach IH];
    intros h m b s r kvs' M L rid Hm Hr Hn Hnd Hlen Hres Hlv st1 st2 Est.
  - destruct h; [|done]. destruct st1; [|done]. exists s, r. split; [done|]. split; [done|].
    apply insert_post_left; [done..|]. cbn [app]. rewrite !app_nil_r. by eapply leaf_insert_post.
  - destruct h as [|h]; [done|].
    destruct st2 as [|e st2' _] using rev_ind.
    { rewrite app_nil_r in Est. subst st1.
      destruct (insert_ascend_ok rl ri False Hrl Hri (TNode nid' (kl ++ kr) (cl ++ c :: cr)) id kvs (zl cl kl ++ mA) (mB ++ zr kr cr)
        (concat (map leaf_seq cl) ++ s1) (s2 ++ concat (map leaf_seq cr)) (st ++ [(nid', length cl, nid c)])
        ltac:(by constructor) (S h) m b s r kvs' M L rid Hr Hn Hnd Hlen Hres Hlv)
        as (s' & r' & E & Hls & Hk & Hp).
      specialize (E []). rewrite app_nil_r in E. exists s', r'. split; [done|]. split; [done|].
      apply insert_post_left in Hp; [|done..]. destruct Hp as (X1 & X2 & X3). split; [done|]. split; [done|].
      destruct X3 as (t1 & x & y & z & sx & sy & sz & X). exists t1, x, y, z, sx, sy, sz.
      destruct X as (X3 & X4 & X5 & X6 & X7 & X8 & X9 & X10 & X11 & X12). split_and!; try done.
      intros Hs. apply X12. destruct r as [?| |?]; simpl in Hk; [by subst|by subst|]. by destruct (Hs k c0). }
    rewrite app_assoc in Est. apply app_inj_tail in Est as [Est <-].
    pose proof (nodup_node _ _ _ _ _ Hnd) as (Hnl & Hnc & Hnr & Nc & Ndl & Ndr).
    pose proof Hr as [Hrep Hch]. pose proof Hn as (Hk & Hc & Hs).
    apply Forall_app in Hch as [Hcl Hch]. apply Forall_cons in Hch as [Hcc Hcr].
    apply chs_app in Hs as (C1 & C2 & C3).
    rewrite <- app_assoc, !Forall_app in Hlv. destruct Hlv as (V1 & V2 & V3 & V4 & V5).
    destruct (IH h (smin rl ri (cflag b cr) h) (cflag b cr) s r kvs' M L rid
      ltac:(unfold smin; destruct (cflag b cr); [destruct h; lia|lia]) Hcc
      (proj1 (shape_nshape _ _ _ _ _) C2) Nc Hlen Hres) with (st1 := st1) (st2 := st2')
      as (s' & r' & Hasc & Hls & Hle & Hfr & t1 & x & y & z & sx & sy & sz & X3 & X4 & X5 & X6 & X7 & X8 & X9 & X10 & X11 & X12).
    { rewrite !Forall_app. done. }
    { done. }
    destruct Hrep as (aus & E & Hla & Ha).
    assert (nid' < length (inners s)) as Hlt by (by eapply lookup_lt_Some).
    exists s', r'. split; [done|]. split; [done|]. split; [done|]. split.
    { intros i Hi Hni. apply Hfr; [done|]. rewrite inner_ids_node, ids_app, ids_cons in Hni. ss. }
    exists (TNode nid' (kl ++ kr) (cl ++ t1 :: cr)), (zl cl kl ++ x), y, (z ++ zr kr cr),
      (concat (map leaf_seq cl) ++ sx), sy, (sz ++ concat (map leaf_seq cr)).
    assert (Forall (irep (inners s') h) cl) as Hcl1.
    { eapply Forall_irep_frame; [done|]. intros i Hi Hlti. apply Hfr; auto. }
    assert (Forall (irep (inners s') h) cr) as Hcr1.
    { eapply Forall_irep_frame; [done|]. intros i Hi Hlti. apply Hfr; auto. }
    split_and!; try done.
    + split.
      * exists aus. split_and!; [| |done].
        -- rewrite Hfr by done. rewrite E, !map_app. simpl. by rewrite X3.
        -- rewrite Hla. by rewrite !app_length.
      * apply Forall_app. split; [done|]. by constructor.
    + split_and!; [lia|lia|rewrite app_length in *; done|].
      apply chs_app. split_and!; auto. by apply shape_nshape.
    + rewrite <- !app_assoc. rewrite (app_assoc M), (app_assoc mA), X6. by rewrite <- !app_assoc.
    + rewrite trav_node by done. rewrite X7. by rewrite <- !app_assoc.
    + rewrite <- !app_assoc. rewrite (app_assoc L), (app_assoc s1), X8. by rewrite <- !app_assoc.
    + simpl. rewrite map_app, concat_app. simpl. rewrite X9. by rewrite <- !app_assoc.
    + intros i. rewrite !inner_ids_node, !ids_app, !ids_cons. rewrite !elem_of_cons, !elem_of_app.
      intros [?|[?|[Hi|?]]]; auto. apply X10 in Hi. naive_solver.
    + rewrite inner_ids_node, ids_app, ids_cons. apply NoDup_cons.
      pose proof Hnd as Hnd'. rewrite inner_ids_node, ids_app, ids_cons in Hnd'. apply NoDup_cons in Hnd' as [Y1 Y2].
      apply NoDup_app in Y2 as (Y2 & Y3 & Y4). apply NoDup_app in Y4 as (Y4 & Y5 & Y6).
      assert (forall i, i ∈ ids cl -> i < length (inners s)) as Z1 by (intros i; by eapply ids_lt).
      assert (forall i, i ∈ ids cr -> i < length (inners s)) as Z2 by (intros i; by eapply ids_lt).
      split.
      * rewrite !elem_of_app. intros [?|[Hi|?]]; [done| |done]. apply X10 in Hi as [?|?]; [done|lia].
      * apply NoDup_app. split; [done|]. split.
        -- intros i Hi. rewrite elem_of_app. intros [Hx|Hx].
           ++ apply X10 in Hx as [Hx|Hx]; [by apply (Ndl i)|]. apply Z1 in Hi. lia.
           ++ apply (Y3 i Hi). apply elem_of_app. by right.
        -- apply NoDup_app. split; [done|]. split; [|done].
           intros i Hi Hx. apply X10 in Hi as [Hi|Hi]; [by apply (Y5 i)|]. apply Z2 in Hx. lia.
Qed.

(** A lookup in one leaf. *)
Lemma find_leaf (s : store K V A) p id kvs pv nx : leaves s !! id = Some (Some (mk_leaf kvs pv nx)) ->
  length kvs <= 64 -> (ORD -> sortedm (map emark kvs)) -> (ORD -> probe_ok p) ->
  exists o, find_in_leaf s id p = Ok o /\ get_any p kvs o /\ (ORD -> o = spec_get p kvs).
Proof.
  intros El Hsz Hsk Hp. unfold find_in_leaf, get_leaf. rewrite El, obind_Ok. unfold leaf_locate_slot_with_value.
  destruct (leaf_locate_any p kvs pv nx Hp Hsz Hsk) as (r & -> & Hr). rewrite obind_Ok.
  clear El Hsk Hsz. destruct r as [i|i].
  - destruct Hr as (a & k & v & b & -> & -> & Hk & Hab). cbn [l_vals mk_leaf].
    rewrite (slot_get_mk _ _ _ v); [|eapply valsof_lookup; by apply lookup_middle'].
    rewrite !obind_Ok. exists (Some v). split_and!; [done|exists k; ss|].
    intros HO. destruct (Hab HO) as [Ha Hb]. by rewrite (proj2 (spec_remove_hit p a k v b Ha Hk)).
  - destruct Hr as (a & b & -> & -> & Hab). rewrite obind_Ok. exists None. split_and!; [done..|].
    intros HO. destruct (Hab HO) as [Ha Hb].
    by rewrite (proj2 (spec_none p (a ++ b) ltac:(apply Forall_app; split; eapply Forall_impl; try done; simpl; congruence))).
Qed.

(** What is left by an interrupted insertion: a readable tree [t1] in a store
    whose leaves are those of the finished insertion. *)
Lemma u_insert_left T h t k v n T' : ORD -> InvAt rl ri False T h t -> (N.of_nat (t_len T) < 2 ^ 64)%N ->
  u_insert n T k v = Ok (Unw T') ->
  exists T2 h2 t2 (t1 : tr) a lost c,
    insert T k v = Ok (spec_get (probe_key k) (flat t), T2) /\ InvAt rl ri False T2 h2 t2 /\
    flat t2 = spec_insert k v (flat t) /\
    spec_insert k v (flat t) = a ++ lost ++ c /\ flat t1 = a ++ c /\
    (spec_get (probe_key k) (flat t) <> None -> lost = []) /\
    leaves (t_store T') = leaves (t_store T2) /\ t_len T' = t_len T /\
    t_root T' = nid t1 /\ irep (inners (t_store T')) h t1 /\ nshape rl ri (rmin h) true h t1 /\
    NoDup (inner_ids t1) /\ sortedm (trav t1) /\
    Forall (lvok (leaves (t_store T'))) (leaf_seq t1).
Proof.
  intros HO HI Hlen Hu.
  destruct (insert_ok rl ri False Hrl Hri T h t k v HO HI Hlen) as (T2 & h2 & t2 & Eins2 & HI2 & Efl2).
  pose proof (fuel_inv _ _ _ _ _ _ HI) as Hfuel. destruct HI as [Hroot Hir Hlr Hnd Hso Hsh Hln Hau Hgb].
  rewrite Hln in Hlen. pose proof (height_bound _ _ _ _ Hsh Hlen) as Hh.
  set (s := t_store T) in *.
  destruct (descend_nshape rl ri False (probe_key k) s h t true _ (fun HO => probe_key_ok (OL:=ord_if HO) k) Hir Hsh Hso)
    as (id & kvs & mA & mB & s1 & s2 & st & R & Hst & FA & FB & D1 & D2 & D3).
  pose proof (reach_trav _ _ _ _ _ _ _ _ R) as Etrav.
  pose proof (reach_seq _ _ _ _ _ _ _ _ R) as (Eseq & EA & EB).
  rewrite Etrav in Hso. rewrite Eseq in Hlr.
  pose proof (nshape_segs _ _ _ _ _ _ Hsh) as Hsz. rewrite Eseq in Hsz.
  apply Forall_app in Hsz as [Hsz1 Hsz2]. apply Forall_cons in Hsz2 as [Hsz2 Hsz3]. simpl in Hsz2.
  assert (ORD -> sortedm (map emark kvs)) as Hsk.
  { intros _. specialize (Hso HO). apply sortedm_app in Hso as (_ & Hso & _). by apply sortedm_app in Hso as (Hso & _). }
  destruct (insert_leaf_ok s s1 id kvs s2 k v Hlr Hsz2 Hsk)
    as (r & s' & M & L & kvs' & Eins & His & Hput & Hspec & Hres & Hlr').
  pose proof (put_any_length _ _ _ _ _ Hput) as Hl1.
  assert (Forall (lvok (leaves s')) (s1 ++ L ++ s2)) as Hlv.
  { apply lrep_lvok'; [done|]. rewrite !Forall_app. split_and!; [done| |done].
    destruct r as [rv| |rk rc0]; simpl in Hres.
    - destruct Hres as (_ & -> & ?). constructor; [done|constructor].
    - destruct Hres as (_ & -> & ?). constructor; [done|constructor].
    - destruct Hres as (? & ? & ? & ? & _ & _ & _ & ? & ? & _ & ->).
      constructor; [simpl; lia|]. constructor; [simpl in *; lia|constructor]. }
  rewrite <- His in Hir.
  assert (forall st1 st2, st = st1 ++ st2 -> exists s'' r', insert_ascend st1 s' r = Ok (r', s'') /\ leaves s'' = leaves s' /\
    left_over (rmin h) true h t (mA ++ M ++ mB) (s1 ++ L ++ s2) s' s'' r) as Hpre.
  { exact (insert_prefix t id kvs mA mB s1 s2 st R h (rmin h) true s' r kvs' M L (length (leaves s))
      ltac:(destruct h; simpl; lia) Hir Hsh Hnd ltac:(lia) Hres Hlv). }
  destruct (insert_ascend_ok rl ri False Hrl Hri t id kvs mA mB s1 s2 st R h (rmin h) true s' r
    kvs' M L (length (leaves s)) Hir Hsh Hnd ltac:(lia) Hres Hlv)
    as (sf & rf & Hasc & Hlsf & Hkind & Hle & Hfr & Hpost).
  specialize (Hasc []). rewrite app_nil_r in Hasc.
  (* the finished insertion has the leaves of [s'] *)
  assert (descend_insert s (t_root T) k v = Ok (rf, sf)) as Edesc.
  { unfold descend_insert. rewrite Hroot.
    destruct t as [lid lkvs|nid' ks ch]; cbn [nid].
    - inversion R; subst. simpl in Hasc. injection Hasc as <- <-. done.
    - unfold insert_inner. rewrite (D3 nid' k) by (done || simpl; lia). rewrite obind_Ok, app_nil_r, Eins, obind_Ok.
      rewrite Hasc. done. }
  assert (leaves (t_store T2) = leaves s') as EL2.
  { clear - Eins2 Edesc Hlsf. unfold insert in Eins2. fold s in Eins2. rewrite Edesc in Eins2. cbn [obind] in Eins2.
    rewrite <- Hlsf. destruct rf as [?| |? ?].
    - destruct (new_augmentation_for_id _ _); simpl in Eins2; try done. by injection Eins2 as _ <-.
    - destruct (new_augmentation_for_id _ _); simpl in Eins2; try done. by injection Eins2 as _ <-.
    - destruct (new_augmentation_for_id _ _); simpl in Eins2; try done.
      destruct (new_augmentation_for_id _ _); simpl in Eins2; try done.
      by injection Eins2 as _ <-. }
  (* the interrupted one is a prefix of the ascent *)
  assert (exists st1 st2 s'' r', st = st1 ++ st2 /\ insert_ascend st1 s' r = Ok (r', s'') /\ T' = with_store T s'') as
    (st1 & st2 & s'' & r' & Est & Easc & ->).
  { unfold u_insert in Hu. fold s in Hu.
    assert (forall f m, u_descend_insert n s (t_root T) k v = Ok (Fin f m) -> f = (rf, sf)) as Hfin.
    { intros f m E. unfold u_descend_insert, u_insert_inner in E. rewrite Hroot in E.
      destruct t as [lid lkvs|nid' ks ch]; cbn [nid] in E.
      - inversion R; subst. simpl in Hasc. injection Hasc as <- <-. rewrite Eins in E. simpl in E. by injection E as <-.
      - rewrite (D3 nid' k) in E by (done || simpl; lia). rewrite obind_Ok, app_nil_r, Eins, obind_Ok in E.
        pose proof (u_insert_ascend_agrees n st s' r) as Ha. rewrite E in Ha. simpl in Ha. rewrite Hasc in Ha. by injection Ha as ->. }
    assert (forall s3, u_descend_insert n s (t_root T) k v = Ok (Unw s3) ->
      exists st1 st2 r', st = st1 ++ st2 /\ insert_ascend st1 s' r = Ok (r', s3)) as Hunw.
    { intros s3 E. unfold u_descend_insert, u_insert_inner in E. rewrite Hroot in E.
      destruct t as [lid lkvs|nid' ks ch]; cbn [nid] in E.
      - destruct (insert_leaf s lid k v); done.
      - rewrite (D3 nid' k) in E by (done || simpl; lia). rewrite obind_Ok, app_nil_r, Eins, obind_Ok in E.
        by eapply u_insert_ascend_unw. }
    destruct (u_descend_insert n s (t_root T) k v) as [[f m|s3]| | | |] eqn:E; cbn [obind] in Hu; try done.
    - specialize (Hfin f m eq_refl). subst f.
      assert (T' = with_store T sf) as ->.
      { unfold ubind, aug_call in Hu. destruct rf as [?| |? ?].
        - destruct (new_augmentation_for_id _ _); simpl in Hu; try done. destruct m; simpl in Hu; [by injection Hu as <-|done].
        - destruct (new_augmentation_for_id _ _); simpl in Hu; try done. destruct m; simpl in Hu; [by injection Hu as <-|done].
        - destruct (new_augmentation_for_id _ _); simpl in Hu; try done. destruct m; simpl in Hu; [by injection Hu as <-|].
          destruct (new_augmentation_for_id _ _); simpl in Hu; try done. destruct m; simpl in Hu; [by injection Hu as <-|].
          destruct m; simpl in Hu; [by injection Hu as <-|done]. }
      exists st, [], sf, rf. rewrite app_nil_r. done.
    - destruct (Hunw s3 eq_refl) as (st1 & st2 & r' & Est & Ea). injection Hu as <-.
      by exists st1, st2, s3, r'. }
  destruct (Hpre st1 st2 Est) as (s3 & r3 & Ea3 & Hl3 & Hle3 & Hfr3 & t1 & x & y & z & sx & sy & sz & X3 & X4 & X5 & X6 & X7 & X8 & X9 & X10 & X11 & X12).
  rewrite Easc in Ea3. injection Ea3 as <- <-.
  assert (sortedm (mA ++ M ++ mB)) as Hsorted.
  { pose proof (ord_if HO).
    pose proof (sortedm_spec_insert k v mA mB kvs (Hso HO) (FA HO) (FB HO)) as Hsp.
    rewrite <- (proj2 (Hspec HO)) in Hsp.
    destruct r as [rv| |rk rc0]; simpl in Hres.
    - by destruct Hres as (-> & _).
    - by destruct Hres as (-> & _).
    - destruct Hres as (l & k0 & v0 & rr & _ & -> & E & ? & ? & -> & _). rewrite E in Hsp.
      apply sortedm_add_sep; [|done]. intros ->. simpl in *. lia. }
  assert (elems (mA ++ M ++ mB) = elems mA ++ kvs' ++ elems mB) as Hflat.
  { rewrite !elems_app. do 2 f_equal.
    destruct r as [rv| |rk rc0]; simpl in Hres.
    - destruct Hres as (-> & _). apply elems_emark.
    - destruct Hres as (-> & _). apply elems_emark.
    - destruct Hres as (l & k0 & v0 & rr & _ & -> & E & ? & ? & -> & _). rewrite E.
      rewrite elems_app, elems_emark. simpl. by rewrite elems_emark. }
  assert (flat t = elems mA ++ kvs ++ elems mB) as Eft.
  { by rewrite <- elems_trav, Etrav, !elems_app, elems_emark. }
  assert (up_val r = spec_get (probe_key k) (flat t) /\ elems mA ++ kvs' ++ elems mB = spec_insert k v (flat t)) as [Hup Hspecf].
  { destruct (Hspec HO) as [-> ->]. specialize (FA HO). specialize (FB HO).
    apply mleft_elems in FA. apply mright_elems in FB. rewrite Eft. split.
    - symmetry. apply spec_get_mid; [eapply Forall_impl; [exact FA|]|eapply Forall_impl; [exact FB|]]; simpl; congruence.
    - by rewrite spec_insert_mid, spec_insert_right. }
  exists T2, h2, t2, t1, (elems x), (elems y), (elems z).
  cbn [with_store t_store t_len t_root]. split_and!; try done.
  - rewrite <- Hspecf, <- Hflat, X6. by rewrite !elems_app.
  - by rewrite <- elems_trav, X7, elems_app.
  - rewrite <- Hup. intros Hn. rewrite X12; [done|]. intros k0 c0 ->. done.
  - by rewrite Hl3, EL2.
  - by rewrite Hroot.
  - rewrite X7. rewrite X6 in Hsorted. eapply sortedm_sublist; [|done].
    apply sublist_app; [done|]. by apply sublist_inserts_l.
  - rewrite Hl3, X9. rewrite X8, !Forall_app in Hlv. rewrite Forall_app. tauto.
Qed.

(** Reading what is left. *)
Lemma u_insert_get T h t k v n T' : 1 <= rl -> ORD -> InvAt rl ri False T h t -> (N.of_nat (t_len T) < 2 ^ 64)%N ->
  u_insert n T k v = Ok (Unw T') ->
  exists a lost c, spec_insert k v (flat t) = a ++ lost ++ c /\
    (spec_get (probe_key k) (flat t) <> None -> lost = []) /\ t_len T' = t_len T /\
    forall p w, probe_ok p -> exists o w', get (recached T' w) p = Ok (o, recached T' w') /\
      (o = spec_get p (a ++ c) \/ w <> None /\ o = spec_get p (a ++ lost ++ c)).
Proof.
  intros Hrl1 HO HI Hlen Hu.
  destruct (u_insert_left T h t k v n T' HO HI Hlen Hu) as (T2 & h2 & t2 & t1 & a & lost & c & E2 & HI2 & Ef2 & Ea & Ef1 & Hl & EL & El & Hroot & Hir & Hsh & Hnd & Hso & Hlv).
  exists a, lost, c. split_and!; try done. intros p w Hp.
  unfold get, recached. cbn [t_store with_store t_root]. set (s := mkStore _ _ w) in *.
  change (inners (t_store T')) with (inners s) in Hir. change (leaves (t_store T')) with (leaves s) in EL, Hlv.
  assert (forall (s' : store K V A) p, leaves s' = leaves (t_store T2) -> forall c0, check_cache s' c0 p = check_cache (t_store T2) c0 p) as Hcc.
  { intros s' p' E c0. unfold check_cache, try_get_leaf. by rewrite E. }
  assert (forall (s' : store K V A) i p, leaves s' = leaves (t_store T2) -> find_in_leaf s' i p = find_in_leaf (t_store T2) i p) as Hfl.
  { intros s' i p' E. unfold find_in_leaf, get_leaf. by rewrite E. }
  destruct (home_exists rl ri False T2 h2 t2 p HI2 (fun _ => Hp)) as (id2 & kvs2 & mA2 & mB2 & sa2 & sb2 & st2 & Hm2).
  unfold try_cache. rewrite Hcc by done. change (cached s) with w.
  destruct (check_cache_ok rl ri False Hrl1 T2 h2 t2 p _ _ _ _ _ _ _ w HO HI2 Hm2) as [Ec|Ec]; rewrite Ec, obind_Ok.
  - destruct (descend_nshape rl ri False p s h t1 true _ (fun _ => Hp) Hir Hsh (fun _ => Hso))
      as (id & kvs & mA & mB & s1 & s2 & st & R & Hst & FA & FB & D1 & D2 & D3).
    pose proof (fuel_ok _ _ _ _ _ _ _ _ Hsh Hir Hnd) as Hfuel.
    rewrite Hroot, D1 by (unfold descend_fuel; lia). rewrite obind_Ok.
    change (find_in_leaf (cache_leaf s id) id p) with (find_in_leaf s id p).
    pose proof (reach_trav _ _ _ _ _ _ _ _ R) as Etrav.
    pose proof (reach_seq _ _ _ _ _ _ _ _ R) as (Eseq & _ & _).
    rewrite Eseq, Forall_app, Forall_cons in Hlv. destruct Hlv as (_ & (pv & nx & El1 & Hsz) & _). simpl in El1, Hsz.
    destruct (find_leaf s p id kvs pv nx El1 Hsz) as (o & -> & _ & Ho).
    { intros _. rewrite Etrav in Hso. apply sortedm_app in Hso as (_ & Hso & _). by apply sortedm_app in Hso as (Hso & _). }
    { done. }
    rewrite obind_Ok. exists o, (Some id). split; [done|]. left.
    rewrite (Ho HO), <- Ef1, <- elems_trav, Etrav, !elems_app, elems_emark. symmetry.
    apply spec_get_mid.
    + eapply Forall_impl; [apply mleft_elems, (FA HO)|]. simpl. congruence.
    + eapply Forall_impl; [apply mright_elems, (FB HO)|]. simpl. congruence.
  - rewrite Hfl by done.
    rewrite (find_in_leaf_ok rl ri False T2 h2 t2 p _ _ _ _ _ _ _ HO HI2 Hp Hm2), obind_Ok.
    eexists _, w. split; [done|]. right. split; [by intros ->|]. by rewrite Ef2, Ea.
Qed.

End Insert.
