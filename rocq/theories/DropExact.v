(** A history drops an augmentation twice exactly if it merges inner nodes. *)
From stdpp Require Import list sorting.
From Verif Require Import Base Slots BinSearch LeafNode InnerNode Store Tree Remove Iterators Observe
  BulkLoad History SlotLemmas NodeLemmas Spec AugSpec Order Logical Descent InsertProof InvLemmas InsertTop
  RemoveLeaf RemoveInner RemoveProof RemoveTop Lookup IterProof IntoProof HistProof HistTop ShapeTop DropSpec.

Section DropExact.
Context {K V A : Type} {KO : KeyOps K} {PF : Profile} {AO : AugOps K V A}.
Notation tree := (tree K V A).
Notation store := (store K V A).
Notation ND := (nodrop AO).
Notation needs := (aug_needs_drop (K:=K) (V:=V) (A:=A) (AugOps:=AO)).

Lemma bind_inv {X Y} (o : outcome X) (f : X -> outcome Y) y : obind o f = Ok y -> exists x, o = Ok x /\ f x = Ok y.
Proof. destruct o; try done. intros H. by eexists. Qed.

(** Peel the same call off both programs. *)
Ltac peel H :=
  let x := fresh "x" in let E := fresh "E" in
  apply bind_inv in H as (x & E & H); 
  match type of E with ?a = _ => try (change a with a in E) end;
  first [rewrite E | (let Ty := type of E in match Ty with _ = ?r =>
    match goal with |- obind ?e _ = _ => let E' := fresh in assert (e = r) as E' by exact E; rewrite E' end end)];
  rewrite obind_Ok.

Lemma merge_next_drop (n rgt n' rgt' : inner K A) k : inner_merge_next n k rgt = Ok (n', rgt') ->
  inner_drop true rgt' = UB.
Proof.
  intros H. unfold inner_merge_next in H. apply bind_inv in H as (ks & _ & H).
  apply debug_assert_inv in H. apply bind_inv in H as ([? ?] & _ & H). apply bind_inv in H as ([? ?] & _ & H).
  apply bind_inv in H as ([raus ?] & E & H). injection H as <- <-. unfold inner_drop. cbn [i_keys i_size i_augs].
  unfold drop_prefix at 1. rewrite decide_True by lia. cbn [take slots_all obind].
  unfold move_to_slice in E. destruct (decide _); [|done]. destruct (decide _); [|done].
  apply if_vacant_Ok in E as [_ E]. injection E as <- <-.
  unfold drop_prefix. destruct (decide _); [|done]. rewrite Nat.sub_0_r, !Nat.add_1_r. done.
Qed.

Lemma merge_node_drop s (node : inner K A) slot y : merge_inner_node (AO:=ND) (V:=V) s node slot = Ok y ->
  merge_inner_node (AO:=AO) s node slot = if needs then UB else Ok y.
Proof.
  unfold merge_inner_node. destruct (decide _); [|destruct dev; [done|]]; intros H.
  all: peel H; peel H; peel H; peel H; peel H; destruct x3 as [[result slot_key] nd].
  all: peel H; destruct x3 as [rgt s1]; peel H; peel H; destruct x4 as [lft' rgt'].
  all: peel H; peel H; apply bind_inv in H as ([] & E' & H); destruct needs eqn:En.
  all: try by rewrite (merge_next_drop _ _ _ _ _ E6).
  all: change (aug_needs_drop (AugOps:=ND)) with false in E'; rewrite E', obind_Ok; done.
Qed.

Lemma handle_inner_drop s st (node : inner K A) i (kv : K * V) r s' st' n' :
  handle_inner_under_size (AO:=ND) s st node i kv = Ok (r, s', st', n') ->
  inner_merges st <= inner_merges st' /\
  handle_inner_under_size (AO:=AO) s st node i kv =
    if decide (inner_merges st < inner_merges st') then if needs then UB else Ok (r, s', st', n')
    else Ok (r, s', st', n').
Proof.
  unfold handle_inner_under_size. intros H.
  apply bind_inv in H as ([[d1 s1] nd1] & E1 & H).
  assert ((if decide (0 < i) then try_rotate_right_for_inner_node (AO:=AO) s node (i - 1) else Ok (false, s, node)) =
    Ok (d1, s1, nd1)) as -> by exact E1. rewrite obind_Ok. destruct d1.
  { injection H as <- <- <- <-. unfold inner_merges. simpl. split; [lia|]. rewrite decide_False by lia. done. }
  apply bind_inv in H as ([[d2 s2] nd2] & E2 & H).
  assert ((if decide (i < i_size nd1) then try_rotate_left_for_inner_node (AO:=AO) s1 nd1 i else Ok (false, s1, nd1)) =
    Ok (d2, s2, nd2)) as -> by exact E2. rewrite obind_Ok. destruct d2.
  { injection H as <- <- <- <-. unfold inner_merges. simpl. split; [lia|]. rewrite decide_False by lia. done. }
  destruct (decide (0 < i)).
  all: apply bind_inv in H as ([[mr s3] nd3] & E3 & H); apply merge_node_drop in E3; rewrite E3.
  all: assert (inner_merges st < inner_merges st') by (destruct mr; injection H as <- <- <- <-; unfold inner_merges; simpl; lia).
  all: (split; [lia|]); rewrite decide_True by done; destruct needs; [done|]; rewrite obind_Ok; done.
Qed.

Lemma handle_leaf_merges s st (node : inner K A) i j r s' st' n' :
  handle_leaf_under_size (V:=V) (AO:=ND) s st node i j = Ok (r, s', st', n') -> inner_merges st' = inner_merges st.
Proof.
  unfold handle_leaf_under_size. intros H. apply bind_inv in H as (? & _ & H). apply bind_inv in H as (? & _ & H).
  apply bind_inv in H as (act & _ & H). destruct act; apply bind_inv in H as ([[? ?] ?] & _ & H);
  injection H as <- <- <- <-; done.
Qed.

Lemma remove_ascend_drop stack : forall (s : store) st r r' s' st',
  remove_ascend (AO:=ND) stack s st r = Ok (r', s', st') ->
  inner_merges st <= inner_merges st' /\
  remove_ascend (AO:=AO) stack s st r =
    if decide (inner_merges st < inner_merges st') then if needs then UB else Ok (r', s', st') else Ok (r', s', st').
Proof.
  induction stack as [|[[pid i] cid] stack IH]; intros s st r r' s' st' H; cbn [remove_ascend] in *.
  { injection H as <- <- <-. split; [lia|]. rewrite decide_False by lia. done. }
  destruct r as [kv|kv|idx].
  - apply bind_inv in H as (ca & E1 & H). 
    assert (new_augmentation_for_id (AO:=AO) s cid = Ok ca) as -> by exact E1. rewrite obind_Ok.
    apply bind_inv in H as (n & -> & H). rewrite obind_Ok. apply bind_inv in H as (n' & -> & H). rewrite obind_Ok.
    by apply IH.
  - apply bind_inv in H as (n & -> & H). rewrite obind_Ok.
    apply bind_inv in H as ([[[r1 s1] st1] n1] & E1 & H). apply handle_inner_drop in E1 as [Hle E1]. rewrite E1.
    apply IH in H as [Hle2 E2]. split; [lia|]. destruct (decide (inner_merges st < inner_merges st1)) as [H1|H1].
    + rewrite (decide_True (P:=inner_merges st < inner_merges st')) by lia. destruct needs; [done|]. rewrite obind_Ok, E2. by destruct (decide _).
    + rewrite obind_Ok, E2. replace (inner_merges st1) with (inner_merges st) by lia. done.
  - apply bind_inv in H as (n & -> & H). rewrite obind_Ok.
    apply bind_inv in H as ([[[r1 s1] st1] n1] & E1 & H). 
    assert (handle_leaf_under_size (AO:=AO) s st n i idx = Ok (r1, s1, st1, n1)) as -> by exact E1.
    rewrite obind_Ok. apply handle_leaf_merges in E1. apply IH in H. by rewrite E1 in H.
Qed.

Lemma remove_drop (T T' : tree) p r : remove (AO:=ND) T p = Ok (r, T') ->
  remove (AO:=AO) T p =
    if decide (inner_merges (t_st T) < inner_merges (t_st T')) then if needs then UB else Ok (r, T') else Ok (r, T').
Proof.
  intros H. unfold remove, remove_impl in *. apply bind_inv in H as ([o T1] & H & H').
  injection H' as <- <-. apply bind_inv in H as (kr & E & H).
  assert (key_to_ref T p = Ok kr) as -> by exact E. rewrite obind_Ok.
  destruct kr as [[[stack id] off]|]; [|injection H as <- <-; rewrite decide_False by lia; done].
  apply bind_inv in H as ([kv T2] & H & H'). injection H' as <- <-.
  unfold remove_by_ref in *. apply bind_inv in H as (n & -> & H). rewrite obind_Ok.
  apply bind_inv in H as ([dr n'] & -> & H). rewrite obind_Ok. cbv zeta in *.
  apply bind_inv in H as ([[r1 s1] st1] & E1 & H). apply remove_ascend_drop in E1 as [Hle E1]. rewrite E1. clear E1.
  apply bind_inv in H as ([[kv1 root] s2] & E2 & H). apply bind_inv in H as (a & E3 & H).
  apply bind_inv in H as (len & E4 & H). injection H as <- <-. cbn [t_st].
  assert (new_augmentation_for_id (AO:=AO) s2 root = Ok a) as E3' by exact E3.
  destruct (decide _); [destruct needs; [done|]|]; rewrite obind_Ok, E2, obind_Ok, E3', obind_Ok, E4; done.
Qed.

(** ** Runs *)
Context {OL : OrdLaws K}.

Lemma inv_same rl ri (T : tree) h t : Logical.InvAt (AO:=ND) rl ri False T h t -> Logical.InvAt (AO:=AO) rl ri False T h t.
Proof. intros []. split; done. Qed.
Lemma inv_same' rl ri (T : tree) h t : Logical.InvAt (AO:=AO) rl ri False T h t -> Logical.InvAt (AO:=ND) rl ri False T h t.
Proof. intros []. split; done. Qed.

Lemma leaf_aug_nd : leaf_aug (AO:=ND) = leaf_aug (AO:=AO).
Proof. done. Qed.
Lemma inner_aug_nd : inner_aug (AO:=ND) = inner_aug (AO:=AO).
Proof. done. Qed.
Lemma begin_nd b : begin (AO:=ND) b = begin (AO:=AO) b.
Proof.
  assert (bulk_leaves (AO:=ND) = bulk_leaves (AO:=AO)) as E1 by (unfold bulk_leaves; by rewrite leaf_aug_nd).
  assert (build_inner_layer (AO:=ND) = build_inner_layer (AO:=AO)) as E2.
  { unfold build_inner_layer, bulk_chunks. by rewrite inner_aug_nd. }
  assert (forall data, bulk_load (AO:=ND) data = bulk_load (AO:=AO) data) as E3.
  { intros [|x data]; [done|]. unfold bulk_load. rewrite E1, E2. done. }
  destruct b as [|data|data]; cbn [begin]; [done|apply E3|]. unfold from_iter. apply E3.
Qed.

Definition merges_from (T : tree) (ops : list (op K V)) : Prop :=
  exists ops1 p ops2 rs T1 r T2, ops = ops1 ++ ORemove p :: ops2 /\
    run (AO:=ND) T ops1 = Ok (rs, T1) /\ remove (AO:=ND) T1 p = Ok (r, T2) /\
    inner_merges (t_st T1) < inner_merges (t_st T2).

Section Run.
Context (rl ri : nat) (Hrl : 1 <= rl <= 16) (Hri : ri <= 16).

Lemma step_drop (T : tree) h t o : Logical.InvAt (AO:=ND) rl ri False T h t ->
  op_fine (AO:=ND) ri False o -> (N.of_nat (t_len T) < 2 ^ 64)%N ->
  exists T' h' t', step (AO:=ND) T o = Ok ((spec_step (flat t) o).1, T') /\
    Logical.InvAt (AO:=ND) rl ri False T' h' t' /\ flat t' = (spec_step (flat t) o).2 /\
    step (AO:=AO) T o =
      match o with
      | ORemove _ => if decide (inner_merges (t_st T) < inner_merges (t_st T')) then
          if needs then UB else Ok ((spec_step (flat t) o).1, T') else Ok ((spec_step (flat t) o).1, T')
      | _ => Ok ((spec_step (flat t) o).1, T')
      end.
Proof.
  intros HI Hf Hlen.
  destruct (HistProof.step_ok (AO:=ND) rl ri False Hrl Hri T h t o HI Hf ltac:(by left) Hlen) as (T' & h' & t' & E & HI' & Ef).
  exists T', h', t'. split_and!; try done. destruct o as [k v|p|p|p f| | | | | | | | |c]; try exact E.
  - cbn [step] in *. apply bind_inv in E as ([r1 T1] & E & E'). injection E' as E' <-. apply remove_drop in E. rewrite E.
    destruct (decide _); [destruct needs; [done|]|]; rewrite obind_Ok, E'; done.
  - destruct (HistProof.step_ok (AO:=AO) rl ri False Hrl Hri T h t OClear (inv_same _ _ _ _ _ HI)) as (T2 & h2 & t2 & E2 & _ & _);
    [by destruct Hf as (? & ? & ?)|by intros []|done|]. rewrite E2. f_equal. f_equal.
    cbn [step] in *. apply bind_inv in E as (T3 & E & E'). apply bind_inv in E2 as (T4 & E2 & E2').
    injection E' as E'. injection E2' as E2'. subst.
    unfold clear in *. apply bind_inv in E as (? & _ & E). apply bind_inv in E2 as (? & _ & E2). injection E as <-. injection E2 as <-. done.
Qed.

Lemma run_drop ops : forall (T : tree) h t, Logical.InvAt (AO:=ND) rl ri False T h t ->
  Forall (op_fine (AO:=ND) ri False) ops -> fits (flat t) ops ->
  (needs = true -> merges_from T ops -> run (AO:=AO) T ops = UB) /\
  (needs = false \/ ~ merges_from T ops -> run (AO:=AO) T ops = run (AO:=ND) T ops).
Proof.
  induction ops as [|o ops IH]; intros T h t HI Hf Hs.
  { split; [|done]. intros _ (ops1 & p & ops2 & rs & T1 & r & T2 & E & _). by destruct ops1. }
  apply Forall_cons in Hf as [Ho Hf]. destruct Hs as [Hs Hs']. rewrite <- (inv_len _ _ _ _ _ _ HI) in Hs.
  destruct (step_drop T h t o HI Ho Hs) as (T' & h' & t' & E & HI' & Ef & E2). rewrite <- Ef in Hs'.
  destruct (IH T' h' t' HI' Hf Hs') as [IH1 IH2]. cbn [run]. rewrite E, obind_Ok.
  assert (forall r, merges_from T' ops -> step (AO:=ND) T o = Ok (r, T') -> merges_from T (o :: ops)) as Hcons.
  { intros r (ops1 & p & ops2 & rs & T1 & r1 & T2 & -> & ER & ?) Es. exists (o :: ops1), p, ops2, (r :: rs), T1, r1, T2.
    split; [done|]. split; [|done]. cbn [run]. by rewrite Es, obind_Ok, ER. }
  assert (merges_from T (o :: ops) -> merges_from T' ops \/
    exists p r, o = ORemove p /\ remove (AO:=ND) T p = Ok (r, T') /\ inner_merges (t_st T) < inner_merges (t_st T')) as Hinv.
  { intros (ops1 & p & ops2 & rs & T1 & r1 & T2 & Eo & ER & E3 & Hlt). destruct ops1 as [|o1 ops1].
    - right. injection Eo as -> ->. injection ER as <- <-. exists p, r1. split; [done|].
      cbn [step] in E. rewrite E3, obind_Ok in E. injection E as E <-. done.
    - left. injection Eo as -> ->. cbn [run] in ER. rewrite E, obind_Ok in ER. apply bind_inv in ER as ([rs' T3] & ER & Er).
      injection Er as <- <-. by exists ops1, p, ops2, rs', T3, r1, T2. }
  split.
  - intros Hn Hm. apply Hinv in Hm as [Hm|(p & r & -> & Er & Hlt)].
    + specialize (IH1 Hn Hm). rewrite E2. destruct o as [k v|p|p|p f| | | | | | | | |c]; try by rewrite obind_Ok, IH1.
      rewrite Hn. destruct (decide _); [done|]. by rewrite obind_Ok, IH1.
    + rewrite E2. rewrite decide_True, Hn by done. done.
  - intros Hn. rewrite E2.
    assert (obind (Ok ((spec_step (flat t) o).1, T')) (fun '(r, T) => obind (run (AO:=AO) T ops) (fun '(rs, T) => Ok (r :: rs, T))) =
      obind (run (AO:=ND) T' ops) (fun '(rs, T0) => Ok ((spec_step (flat t) o).1 :: rs, T0))) as Hrest.
    { rewrite obind_Ok, IH2; [done|]. destruct Hn as [Hn|Hn]; [by left|]. right. intros Hm. apply Hn. by eapply Hcons. }
    destruct o as [k v|p|p|p f| | | | | | | | |c]; try exact Hrest. destruct (decide _) as [Hlt|Hlt]; [|exact Hrest].
    destruct Hn as [Hn|Hn]; [by rewrite Hn|]. destruct Hn. cbn [step] in E. apply bind_inv in E as ([r1 T1] & E & E'). injection E' as E' ->.
    exists [], p, ops, [], T, r1, T'. done.
Qed.
End Run.

Lemma drops_exact_top b (ops : list (op K V)) :
  start_ok b -> Forall op_ok ops -> fits (spec_begin b) ops ->
  (Exists is_remove ops -> orphan_free (length (spec_begin b))) ->
  (needs = true -> merges AO b ops -> exec (AO:=AO) b ops = UB) /\
  (needs = false \/ ~ merges AO b ops ->
    exists T : tree, exec (AO:=AO) b ops = Ok ((spec_exec b ops).1, T) /\ tree_drop (AO:=AO) T = Ok (spec_exec b ops).2).
Proof.
  intros H1 H2 H3 H4. assert (legal (AO:=ND) b ops) as Hl by (split; [done..|by apply drops_none]).
  destruct (low_inner_exists (AO:=ND) b ops Hl) as (ri & L1 & L2 & L3).
  destruct (exec_inv (AO:=ND) False b ops ri Hl L1 L2 L3) as (TN & hN & tN & EN & HIN & HfN); [done|].
  destruct (begin_ok (AO:=ND) False b ri H1 L1 L2) as (T & h & t & E & HI & Hf).
  assert (1 <= low b <= 16) as Hlow by (destruct b; simpl; lia).
  assert (begin (AO:=AO) b = Ok T) as EA by (by rewrite <- begin_nd).
  destruct (run_drop (low b) ri Hlow ltac:(lia) ops T h t HI) as [R1 R2].
  { rewrite Forall_forall in H2 |- *. intros o Hin. split_and!; [by apply H2| |done].
    intros Hor. apply L3, Exists_exists. by exists o. }
  { by rewrite Hf. }
  unfold exec in *. rewrite EA. rewrite E in EN. rewrite obind_Ok in EN |- *.
  assert (merges AO b ops <-> merges_from T ops) as Hm.
  { unfold merges, merges_from, exec. setoid_rewrite E. done. }
  rewrite Hm. split; [done|]. intros Hn. rewrite (R2 Hn), EN. exists TN. split; [done|].
  rewrite <- HfN. refine (tree_drop_ok (AO:=AO) _ ri False _ TN hN tN (inv_same _ _ _ _ _ HIN)). lia.
Qed.
End DropExact.
