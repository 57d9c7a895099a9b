(** [bulk_load] and [from_iter]. *)
From stdpp Require Import list sorting.
From Verif Require Import Base Slots BinSearch LeafNode InnerNode Store Tree Remove Iterators Observe
  BulkLoad SlotLemmas NodeLemmas Spec Order Logical Descent InsertProof InvLemmas InsertTop
  RemoveLeaf RemoveInner RemoveProof RemoveTop Lookup IterProof IntoProof.

Section BulkProof.
Context {K V A : Type} {KO : KeyOps K} {PF : Profile} {OM : OrdMode} {OI : OrdIf K} {AO : AugOps K V A}.
Notation tr := (tr K V).
Notation tree := (tree K V A).
Notation store := (store K V A).
Notation mark := (K * option V)%type.
Notation seg := (nat * list (K * V))%type.
Notation bl_node := (@bl_node K A).
Context (ri : nat) (SYNC : Prop) (Hri : ri <= 1).
Notation shape := (shape (K:=K) (V:=V) 1 ri).
Notation nshape := (nshape (K:=K) (V:=V) 1 ri).

(** Ascending, if the comparison is an order. *)
Definition asc_if (l : list (K * V)) : Prop := ORD -> ascending l.

(** ** Sortedness of freshly built nodes *)
Record good (t : tr) : Prop := {
  g_sorted : ORD -> sortedm (trav t);
  g_head : exists k v r, trav t = (k, Some v) :: r /\ exists r', flat t = (k, v) :: r';
  g_keys : forall m, m ∈ trav t -> exists v, (m.1, v) ∈ flat t;
}.

Definition start_of (t : tr) : option K := fst <$> head (flat t).

Lemma asc_app_lt (a b : list (K * V)) x y : ascending (a ++ b) -> x ∈ a -> y ∈ b -> kcmp x.1 y.1 = Lt.
Proof.
  unfold ascending. induction a as [|z a IH]; intros H Hx Hy; [by apply elem_of_nil in Hx|].
  inversion H as [|? ? H1 H2]; subst. apply elem_of_cons in Hx as [->|Hx]; [|by apply IH].
  rewrite Forall_forall in H2. apply H2. apply elem_of_app. by right.
Qed.

Lemma good_seq c cs ks : Forall good (c :: cs) -> asc_if (concat (map flat (c :: cs))) ->
  map start_of cs = map Some ks ->
  (ORD -> sortedm (interleave (map trav (c :: cs)) ks)) /\
  (exists k v r, interleave (map trav (c :: cs)) ks = (k, Some v) :: r /\ exists r', flat c = (k, v) :: r') /\
  (forall m, m ∈ interleave (map trav (c :: cs)) ks -> exists v, (m.1, v) ∈ concat (map flat (c :: cs))).
Proof.
  revert c ks. induction cs as [|c' cs IH]; intros c ks Hg Ha Hk.
  - destruct ks; [|done]. apply Forall_cons in Hg as [[G1 G2 G3] _]. simpl. rewrite !app_nil_r. done.
  - destruct ks as [|k ks]; [done|]. cbn [map] in Hk. injection Hk as Hk1 Hk2. apply Forall_cons in Hg as [[G1 G2 G3] Hg].
    change (concat (map flat (c :: c' :: cs))) with (flat c ++ concat (map flat (c' :: cs))) in *.
    assert (asc_if (concat (map flat (c' :: cs)))) as Ha'.
    { intros HO. specialize (Ha HO). clear -Ha. unfold ascending in *. induction (flat c); [done|]. inversion Ha. auto. }
    destruct (IH c' ks Hg Ha' Hk2) as (I1 & (k' & v' & r & I2 & r' & I3) & I4).
    change (interleave (map trav (c :: c' :: cs)) (k :: ks)) with (trav c ++ (k, None) :: interleave (map trav (c' :: cs)) ks).
    assert (k' = k) as ->. { unfold start_of in Hk1. rewrite I3 in Hk1. simpl in Hk1. by injection Hk1. }
    set (I := interleave (map trav (c' :: cs)) ks) in *. set (F := concat (map flat (c' :: cs))) in *.
    assert ((k, v') ∈ F) as HkF. { unfold F. cbn [map concat]. rewrite I3. constructor. }
    split_and!.
    + intros HO. pose proof (ord_if HO). specialize (G1 HO). specialize (I1 HO). specialize (Ha HO).
      apply sortedm_app. split_and!; [done| |].
      * apply sortedm_cons. split; [done|]. rewrite I2 in I1 |- *. apply sortedm_cons in I1 as [_ I1].
        assert (ltm (k, None) (k, Some v')) as Hkk by (unfold ltm; simpl; by rewrite ord_refl).
        constructor; [done|]. eapply Forall_impl; [exact I1|]. intros m Hm. by eapply ltm_trans.
      * intros x y Hx Hy. destruct (G3 _ Hx) as (v & Hv).
        assert (exists w, (y.1, w) ∈ F) as (w & Hw).
        { apply elem_of_cons in Hy as [->|Hy]; [by exists v'|]. by apply I4. }
        unfold ltm. pose proof (asc_app_lt _ _ _ _ Ha Hv Hw) as Hlt. simpl in Hlt. by rewrite Hlt.
    + destruct G2 as (k0 & v0 & r0 & G2 & r0' & G2'). rewrite G2. exists k0, v0. eexists. split; [done|]. eauto.
    + intros m Hm. rewrite elem_of_app, elem_of_cons in Hm. destruct Hm as [Hm|[->|Hm]].
      * destruct (G3 _ Hm) as (v & Hv). exists v. apply elem_of_app. by left.
      * exists v'. apply elem_of_app. by right.
      * destruct (I4 _ Hm) as (v & Hv). exists v. apply elem_of_app. by right.
Qed.

Lemma good_node id c cs ks : Forall good (c :: cs) -> asc_if (concat (map flat (c :: cs))) ->
  map start_of cs = map Some ks -> good (TNode id ks (c :: cs)).
Proof.
  intros Hg Ha Hk. destruct (good_seq c cs ks Hg Ha Hk) as (G1 & (k & v & r & G2 & r' & G2') & G3). split.
  - done.
  - exists k, v, r. split; [done|]. rewrite flat_node. cbn [map concat]. rewrite G2'. eauto.
  - intros m Hm. rewrite flat_node. by apply G3.
Qed.

Lemma good_leaf id (kvs : list (K * V)) : kvs <> [] -> asc_if kvs -> good (TLeaf id kvs).
Proof.
  intros Hn Ha. split.
  - intros HO. by apply sortedm_emark, Ha.
  - destruct kvs as [|[k v] kvs]; [done|]. exists k, v. eexists. split; [done|]. rewrite flat_leaf. eauto.
  - intros m Hm. rewrite flat_leaf. simpl in Hm. apply elem_of_list_fmap in Hm as ([k v] & -> & Hm). by exists v.
Qed.

(** A node with a single child, on the way down the last children. *)
Inductive orph : tr -> Prop :=
| orph_here id c : orph (TNode id [] [c])
| orph_up id ks cl c : orph c -> orph (TNode id ks (cl ++ [c])).
Definition orph_last (ts : list tr) : Prop := exists cl c, ts = cl ++ [c] /\ orph c.
(** The lowest node on the way down the last children has one child exactly when
    [b]. *)
Inductive bottom (b : bool) : tr -> Prop :=
| bottom_here id ks cl i kvs : b = bool_decide (cl = []) -> bottom b (TNode id ks (cl ++ [TLeaf i kvs]))
| bottom_up id ks cl c : bottom b c -> bottom b (TNode id ks (cl ++ [c])).
Definition bottom_last (b : bool) (ts : list tr) : Prop := exists cl c, ts = cl ++ [c] /\ bottom b c.

(** ** The nodes of a layer *)
Definition nrel (n : bl_node) (t : tr) : Prop := bl_id n = nid t /\ bl_aug n = aug_of t.
Definition srel (n : bl_node) (t : tr) : Prop := bl_start n = start_of t.
Definition lrel (b : bool) (ns : list bl_node) (ts : list tr) : Prop :=
  match ns, ts with
  | [], [] => True
  | n :: ns', t :: ts' => nrel n t /\ (if b then srel n t else True) /\
      Forall2 (fun n t => nrel n t /\ srel n t) ns' ts'
  | _, _ => False
  end.

Lemma lrel_Forall2 b ns ts : lrel b ns ts -> Forall2 nrel ns ts.
Proof.
  destruct ns as [|n ns], ts as [|t ts]; simpl; try done. intros (H1 & _ & H2). constructor; [done|].
  eapply Forall2_impl; [done|]. by intros ? ? [? _].
Qed.
Lemma nrel_maps ns ts : Forall2 nrel ns ts -> map bl_id ns = map nid ts /\ map bl_aug ns = map aug_of ts.
Proof. induction 1 as [|n t ns ts [H1 H2] Hf [IH1 IH2]]; simpl; [done|]. by rewrite H1, H2, IH1, IH2. Qed.

Lemma lrel_take_drop b ns ts m : 0 < m -> lrel b ns ts ->
  lrel b (take m ns) (take m ts) /\ lrel true (drop m ns) (drop m ts).
Proof.
  intros Hm H. destruct m as [|m]; [lia|]. destruct ns as [|n ns], ts as [|t ts]; try done.
  destruct H as (H1 & H2 & H3). simpl. split.
  - split_and!; try done. by apply Forall2_take.
  - apply (Forall2_drop _ _ _ m) in H3. inversion H3 as [|? ? ? ? [X1 X2] X3]; simpl; [done|]. split_and!; done.
Qed.

Lemma expect_all_some (ks : list K) : expect_all (map Some ks) = Ok ks.
Proof. induction ks as [|k ks IH]; [done|]. cbn [map expect_all]. by rewrite IH. Qed.

Lemma starts_some (ts : list tr) : Forall good ts -> exists ks, map start_of ts = map Some ks.
Proof.
  induction 1 as [|t ts [_ (k & v & r & _ & r' & E) _] Hf (ks & IH)]; [by exists []|].
  exists (k :: ks). simpl. unfold start_of at 1. rewrite E. simpl. by rewrite IH.
Qed.

(** ** One layer of inner nodes *)
Definition cids (ts : list tr) : list nat := concat (map inner_ids ts).
Definition csegs (ts : list tr) : list seg := concat (map leaf_seq ts).
Definition cflat (ts : list tr) : list (K * V) := concat (map flat ts).

Lemma start_of_node id ks (ch : list tr) c : head ch = Some c -> good c -> start_of (TNode id ks ch) = start_of c.
Proof.
  intros Hc [_ (k & v & r & _ & r' & E) _]. destruct ch as [|c' ch]; [done|]. injection Hc as ->.
  unfold start_of. rewrite flat_node. simpl. by rewrite E.
Qed.

Lemma asc_app0 (a b : list (K * V)) : ascending (a ++ b) -> ascending a /\ ascending b.
Proof.
  unfold ascending. induction a as [|x a IH]; intros H; [split; [constructor|done]|].
  inversion H as [|? ? H1 H2]; subst. destruct (IH H1). split; [|done]. constructor; [done|].
  by apply Forall_app in H2 as [? _].
Qed.
Lemma asc_app (a b : list (K * V)) : asc_if (a ++ b) -> asc_if a /\ asc_if b.
Proof. intros H. split; intros HO; by apply asc_app0 in H as [? ?]. Qed.

Lemma chunk_step (s : store) h b nodes ts m : 0 < m <= 65 -> m = length ts -> Forall good ts ->
  Forall (irep SYNC (inners s) h) ts -> asc_if (cflat ts) -> lrel b nodes ts ->
  exists first nodes0 keys n a, nodes = first :: nodes0 /\
    expect_all (map bl_start (drop 1 nodes)) = Ok keys /\
    inner_new_from_iter keys (map bl_id nodes) (map bl_aug nodes) = Ok n /\
    inner_aug (V:=V) n = Ok a /\ length keys = m - 1 /\
    let t := TNode (length (inners s)) keys ts in
    irep SYNC (inners s ++ [Some n]) (S h) t /\ good t /\ a = aug_of t /\ start_of t = start_of (List.hd t ts) /\
    (if b then bl_start first = start_of t else True).
Proof.
  intros Hm Hl Hg Hi Ha Hr. pose proof (lrel_Forall2 _ _ _ Hr) as H2. destruct (nrel_maps _ _ H2) as [E1 E2].
  destruct ts as [|c ts]; [simpl in Hl; lia|]. destruct nodes as [|first nodes0]; [done|].
  destruct Hr as (R1 & R2 & R3). pose proof Hg as Hg'. apply Forall_cons in Hg' as [Hgc Hg'].
  destruct (starts_some ts Hg') as (ks & Ek).
  assert (map bl_start nodes0 = map start_of ts) as Es.
  { clear -R3. induction R3 as [|n t ns ts [_ H] Hf IH]; [done|]. simpl. by rewrite H, IH. }
  assert (length ks = length ts) as Hlk.
  { rewrite <- (map_length Some ks), <- Ek, map_length. done. }
  assert (inner_fits ks (map nid (c :: ts)) (map (aug_of (A:=A)) (c :: ts))) as Hfit.
  { unfold inner_fits, INNER_N. rewrite !map_length. simpl in *. lia. }
  exists first, nodes0, ks, (mk_inner ks (map nid (c :: ts)) (map aug_of (c :: ts))), (from_inner (V:=V) ks (map aug_of (c :: ts))).
  split_and!; try done.
  - change (drop 1 (first :: nodes0)) with nodes0. rewrite Es, Ek. apply expect_all_some.
  - rewrite E1, E2. by apply inner_new_from_iter_mk.
  - unfold inner_aug. rewrite inner_keys_mk, obind_Ok by done. rewrite inner_augmentations_mk by done. done.
  - simpl in *. lia.
  - intros t. split; [|split; [|split; [|split]]].
    + split.
      * exists (map aug_of (c :: ts)). split; [by apply list_lookup_middle|]. split; [by rewrite !map_length|done].
      * rewrite Forall_forall in Hi |- *. intros x Hx. eapply irep_frame; [by apply Hi|].
        intros i Hin. apply lookup_app_l. by eapply irep_lt; [apply Hi|].
    + by apply good_node.
    + done.
    + by apply start_of_node.
    + destruct b; [|done]. unfold t. rewrite (start_of_node _ _ _ c) by done. done.
Qed.

Lemma bulk_chunks_ok fuel (s : store) h b nodes acc ts :
  ts <> [] -> length ts <= fuel -> lrel b nodes ts -> Forall good ts ->
  Forall (irep SYNC (inners s) h) ts -> chs (fun b' => shape b' h) true ts ->
  asc_if (cflat ts) -> (ri = 1 -> length ts mod 65 <> 1) ->
  exists (s' : store) nodes' ts', bulk_chunks fuel s nodes acc = Ok (s', acc ++ nodes') /\
    lrel b nodes' ts' /\ Forall good ts' /\ leaves s' = leaves s /\
    (exists new, inners s' = inners s ++ map Some new /\ length new = length ts') /\
    Forall (irep SYNC (inners s') (S h)) ts' /\ chs (fun b' => shape b' (S h)) true ts' /\
    csegs ts' = csegs ts /\ cflat ts' = cflat ts /\
    cids ts' ≡ₚ cids ts ++ seq (length (inners s)) (length ts') /\
    length ts' = (length ts + 64) / 65 /\
    (2 <= length ts -> forall t, ts' = [t] -> nshape 1 true (S h) t) /\
    (orph_last ts \/ length ts mod 65 = 1 -> orph_last ts') /\
    (forall b0, bottom_last b0 ts -> bottom_last b0 ts') /\
    (h = 0 -> bottom_last (bool_decide (length ts mod 65 = 1)) ts').
Proof.
  revert s b nodes acc ts. induction fuel as [|fuel IH]; intros s b nodes acc ts Hne Hf Hr Hg Hi Hs Ha Ho.
  { destruct ts; [done|simpl in Hf; lia]. }
  assert (length nodes = length ts) as Hln by (eapply Forall2_length, lrel_Forall2; done).
  destruct (lrel_take_drop b nodes ts 65 ltac:(lia) Hr) as [Hr1 Hr2].
  assert (Forall good (take 65 ts) /\ Forall good (drop 65 ts)) as [Hg1 Hg2] by (split; [by apply Forall_take|by apply Forall_drop]).
  assert (Forall (irep SYNC (inners s) h) (take 65 ts) /\ Forall (irep SYNC (inners s) h) (drop 65 ts)) as [Hi1 Hi2]
    by (split; [by apply Forall_take|by apply Forall_drop]).
  assert (cflat ts = cflat (take 65 ts) ++ cflat (drop 65 ts)) as Ef.
  { unfold cflat. rewrite <- concat_app, <- map_app, take_drop. done. }
  assert (csegs ts = csegs (take 65 ts) ++ csegs (drop 65 ts)) as Esg.
  { unfold csegs. rewrite <- concat_app, <- map_app, take_drop. done. }
  assert (cids ts = cids (take 65 ts) ++ cids (drop 65 ts)) as Eid.
  { unfold cids. rewrite <- concat_app, <- map_app, take_drop. done. }
  rewrite Ef in Ha. apply asc_app in Ha as [Ha1 Ha2].
  assert (0 < length (take 65 ts) <= 65) as Hlt.
  { rewrite take_length. destruct ts; [done|]. cbn [length]. lia. }
  destruct (chunk_step s h b (take 65 nodes) (take 65 ts) _ Hlt eq_refl Hg1 Hi1 Ha1 Hr1)
    as (first & nodes0 & keys & n & a & En & Ek & Enew & Ea & Hlk & Hirep & Hgood & Haug & Hst & Hb).
  destruct nodes as [|f0 nodes1] eqn:Enodes; [by destruct ts|]. cbn [bulk_chunks].
  change (INNER_N + 1) with 65. rewrite <- Enodes in *.
  assert (f0 = first) as ->. { rewrite Enodes in En. simpl in En. by injection En. }
  rewrite Ek, obind_Ok, Enew, obind_Ok, Ea, obind_Ok. cbn [add_inner].
  set (t := TNode (length (inners s)) keys (take 65 ts)) in *.
  set (s1 := set_inners s (inners s ++ [Some n])).
  set (N := (NInner (length (inners s)), (bl_start first, bl_start (List.last (take 65 nodes) first)), a) : bl_node).
  assert (nrel N t) as HN by done.
  assert (if b then srel N t else True) as HSN by (destruct b; [exact Hb|done]).
  assert (csegs [t] = csegs (take 65 ts)) as Et1 by (unfold csegs; simpl; by rewrite app_nil_r).
  assert (cflat [t] = cflat (take 65 ts)) as Et2.
  { unfold cflat. change (map flat [t]) with [flat t]. cbn [concat]. rewrite app_nil_r. apply flat_node. }
  assert (cids [t] = length (inners s) :: cids (take 65 ts)) as Et3 by (unfold cids; simpl; by rewrite app_nil_r).
  destruct (decide (drop 65 ts = [])) as [Hd|Hd].
  - (* last chunk *)
    assert (length ts <= 65) as Hl65.
    { apply (f_equal length) in Hd. rewrite drop_length in Hd. simpl in Hd. lia. }
    assert (drop 65 nodes = []) as -> by (apply drop_ge; lia).
    exists s1, [N], [t]. rewrite Hd in *. rewrite (take_ge ts 65) in * by done.
    assert (chs (fun b' => shape b' (S h)) true [t]) as Hch.
    { cbn [chs Logical.shape t]. rewrite (take_ge ts 65) by done. split; [split; [|lia]|split; [lia|done]].
      destruct (decide (ri = 0)); [lia|]. assert (ri = 1) as E1 by lia. specialize (Ho E1).
      destruct (decide (length ts = 1)) as [E|]; [|lia]. exfalso. apply Ho. by rewrite E. }
    split_and!; try done.
    + destruct fuel; done.
    + by constructor.
    + exists [n]. split; [|done]. done.
    + by constructor.
    + rewrite Et3. cbn [seq length]. rewrite <- Permutation_middle, app_nil_r. done.
    + cbn [length]. destruct ts; [done|]. cbn [length] in *.
      change (S (length ts) + 64) with (S (length ts) + 64). apply (Nat.div_unique _ 65 1 (length ts)); lia.
    + intros H2 t' [= <-]. cbn [Logical.nshape t]. rewrite (take_ge ts 65) by done. split; [lia|split; [lia|done]].
    + intros Hor. exists [], t. split; [done|]. unfold t. rewrite (take_ge ts 65) by done. destruct Hor as [(cl & c & -> & Hc)|Hm].
      * by constructor.
      * assert (length ts = 1) as E1.
        { destruct (decide (length ts = 65)) as [E|]; [by rewrite E in Hm|]. rewrite Nat.mod_small in Hm; lia. }
        destruct ts as [|c [|]]; try done. destruct keys; [constructor|simpl in Hlk; lia].
    + intros b0 (cl & c & -> & Hc). exists [], t. split; [done|]. unfold t. rewrite (take_ge _ 65) by done. by apply bottom_up.
    + intros ->. exists [], t. split; [done|]. unfold t. rewrite (take_ge ts 65) by done.
      destruct (exists_last Hne) as (cl & c & ->). apply chs_app2 in Hs as [_ Hs]; [|done]. destruct c as [i kvs|]; [|done].
      apply bottom_here. rewrite app_length in *. cbn [length] in *. destruct cl as [|c0 cl]; [done|].
      rewrite !bool_decide_false; [done|done|]. cbn [length] in *. destruct (decide (S (length cl) + 1 = 65)) as [->|]; [done|].
      rewrite Nat.mod_small by lia. lia.
  - (* more chunks follow *)
    assert (65 < length ts) as Hl65.
    { destruct (decide (65 < length ts)); [done|]. rewrite drop_ge in Hd by lia. done. }
    assert (length (drop 65 ts) = length ts - 65) as Hld by apply drop_length.
    assert (Forall (shape false h) (take 65 ts) /\ chs (fun b' => shape b' h) true (drop 65 ts)) as [Hs1 Hs2].
    { rewrite <- (take_drop 65 ts) in Hs. by apply chs_app2 in Hs. }
    destruct (IH s1 true (drop 65 nodes) (acc ++ [N]) (drop 65 ts)) as
      (s' & nodes' & ts' & E & Rr & Rg & Rl & (new & Rn & Rnl) & Ri & Rs & Rsg & Rf & Rid & Rlen & _ & Ror & Rb & Rb0); try done.
    { lia. }
    { eapply Forall_impl; [exact Hi2|]. intros x Hx. eapply irep_frame; [exact Hx|].
      intros i Hin. apply lookup_app_l. by eapply irep_lt. }
    { intros E1. rewrite Hld. specialize (Ho E1). intros E. apply Ho.
      replace (length ts) with (length ts - 65 + 1 * 65) by lia. rewrite Nat.mod_add by lia. done. }
    exists s', (N :: nodes'), (t :: ts'). rewrite <- app_assoc in E. split; [exact E|]. clear E.
    assert (inners s' = inners s ++ map Some (n :: new)) as Ei'.
    { rewrite Rn. simpl. by rewrite <- app_assoc. }
    assert (ts' <> []) as Hne'. { destruct ts'; [done|done]. }
    split_and!; try done.
    + split_and!; [done|done|]. destruct nodes' as [|n' nodes'], ts' as [|t' ts']; try done.
      destruct Rr as (X1 & X2 & X3). constructor; [by split|]. done.
    + by constructor.
    + exists (n :: new). split; [done|]. cbn [length]. lia.
    + constructor; [|done]. eapply irep_frame; [exact Hirep|]. intros i Hin. rewrite Ei'. simpl.
      assert (i < length (inners s ++ [Some n])) as Hlt'.
      { eapply irep_lt; [exact Hirep|done]. }
      change (Some n :: map Some new) with ([Some n] ++ map Some new). rewrite app_assoc. by apply lookup_app_l.
    + change (t :: ts') with ([t] ++ ts'). apply chs_app2; [done|]. split; [|done].
      constructor; [|constructor]. cbn [Logical.shape t]. rewrite take_length in Hlk. split_and!; [lia|lia|rewrite take_length; lia|].
      apply (chs_Forall (fun b' => shape b' h)); [|done]. intros E0. rewrite E0 in Hlt. simpl in Hlt. lia.
    + unfold csegs in *. cbn [map concat] in *. rewrite app_nil_r in Et1. rewrite Et1, Rsg, Esg. done.
    + rewrite Ef. unfold cflat in *. cbn [map concat] in *. rewrite app_nil_r in Et2. rewrite Et2, Rf. done.
    + assert (cids (t :: ts') = cids [t] ++ cids ts') as -> by (unfold cids; cbn [map concat]; by rewrite app_nil_r).
      rewrite Et3, Rid, Eid. cbn [length seq].
      assert (length (inners s1) = S (length (inners s))) as ->.
      { unfold s1. simpl. rewrite app_length. simpl. lia. }
      rewrite <- Permutation_middle. simpl. constructor. rewrite <- app_assoc. done.
    + cbn [length]. rewrite Rlen, Hld. replace (length ts + 64) with (length ts - 65 + 64 + 1 * 65) by lia.
      rewrite Nat.div_add by lia. lia.
    + intros _ t0 [= -> ->]. done.
    + intros Hor. destruct Ror as (cl' & c' & -> & Hc').
      { destruct Hor as [(cl & c & Ets & Hc)|Hm].
        - left. rewrite Ets, app_length in Hl65. cbn [length] in Hl65. exists (drop 65 cl), c. split; [|done]. rewrite Ets, drop_app_le by lia. done.
        - right. rewrite Hld. replace (length ts) with (length ts - 65 + 1 * 65) in Hm by lia. by rewrite Nat.mod_add in Hm by lia. }
      exists (t :: cl'), c'. done.
    + intros b0 (cl & c & Ets & Hc). destruct (Rb b0) as (cl' & c' & -> & Hc').
      { rewrite Ets, app_length in Hl65. cbn [length] in Hl65. exists (drop 65 cl), c. split; [|done]. rewrite Ets, drop_app_le by lia. done. }
      exists (t :: cl'), c'. done.
    + intros E0. destruct (Rb0 E0) as (cl' & c' & -> & Hc'). exists (t :: cl'), c'. split; [done|]. rewrite Hld in Hc'.
      replace (length ts mod 65) with ((length ts - 65) mod 65); [done|].
      rewrite <- (Nat.mod_add (length ts - 65) 1 65) by lia. f_equal. lia.
Qed.

(** ** All layers *)

Lemma build_layers_ok fuel (s : store) h nodes ts :
  ts <> [] -> length ts <= fuel -> lrel false nodes ts -> Forall good ts ->
  Forall (irep SYNC (inners s) h) ts -> chs (fun b' => shape b' h) true ts ->
  asc_if (cflat ts) -> (ri = 1 -> no_orphan (length ts)) -> NoDup (cids ts) ->
  (forall i n, inners s !! i = Some (Some n) -> i ∈ cids ts) ->
  (forall t, ts = [t] -> nshape (rmin h) true h t) ->
  exists (s' : store) h' t, build_inner_layer fuel s nodes = Ok (s', nid t) /\ good t /\
    irep SYNC (inners s') h' t /\ nshape (rmin h') true h' t /\ leaf_seq t = csegs ts /\
    leaves s' = leaves s /\ NoDup (inner_ids t) /\
    (forall i n, inners s' !! i = Some (Some n) -> i ∈ inner_ids t) /\
    (orph_last ts \/ ~ no_orphan (length ts) -> orph t) /\ (forall b0, bottom_last b0 ts -> bottom b0 t) /\
    (h = 0 -> 2 <= length ts -> bottom (bool_decide (length ts mod 65 = 1)) t).
Proof.
  revert s h nodes ts. induction fuel as [|fuel IH]; intros s h nodes ts Hne Hf Hr Hg Hi Hs Ha Ho Hnd Hgb Hsing.
  { destruct ts; [done|simpl in Hf; lia]. }
  assert (length nodes = length ts) as Hln by (eapply Forall2_length, lrel_Forall2; done).
  destruct (decide (length ts = 1)) as [H1|H1].
  - destruct ts as [|t [|]]; try done. destruct nodes as [|n [|]]; try done.
    destruct Hr as ([R1 _] & _). exists s, h, t. cbn [build_inner_layer]. rewrite R1.
    unfold cids, csegs in *. simpl in *. rewrite app_nil_r in *.
    apply Forall_cons in Hg as [Hg _]. apply Forall_cons in Hi as [Hi _]. split_and!; try done; [by apply Hsing| | |lia].
    + intros [(cl & c & Ec & Hc)|Hc]; [|destruct Hc; constructor]. destruct cl as [|? [|]]; simpl in Ec; try done. by injection Ec as ->.
    + intros b0 (cl & c & Ec & Hc). destruct cl as [|? [|]]; simpl in Ec; try done. by injection Ec as ->.
  - assert (2 <= length ts) as H2 by (destruct ts as [|? [|]]; simpl in *; (done || lia)).
    assert (ri = 1 -> length ts mod 65 <> 1 /\ no_orphan ((length ts + 64) / 65)) as Ho'.
    { intros E. specialize (Ho E). inversion Ho; [lia|done]. }
    destruct (bulk_chunks_ok (length nodes) s h false nodes [] ts) as
      (s1 & nodes1 & ts1 & E & Rr & Rg & Rl & (new & Rn & Rnl) & Ri & Rs & Rsg & Rf & Rid & Rlen & Rsing & Ror & Rb & Rb0); try done.
    { lia. } { intros E. by apply Ho'. }
    assert (build_inner_layer (S fuel) s nodes = build_inner_layer fuel s1 nodes1) as ->.
    { destruct nodes as [|n1 [|n2 nodes]]; [simpl in Hln; lia|simpl in Hln; lia|]. cbn [build_inner_layer].
      rewrite E. done. }
    assert (length ts1 < length ts) as Hlt.
    { rewrite Rlen. apply Nat.div_lt_upper_bound; lia. }
    assert (forall i, i ∈ cids ts -> i < length (inners s)) as Hidlt.
    { intros i Hin. unfold cids in Hin. apply elem_of_list_In, in_concat in Hin as (l & Hl & Hin).
      apply in_map_iff in Hl as (c & <- & Hc). apply elem_of_list_In in Hc, Hin.
      rewrite Forall_forall in Hi. eapply irep_lt; [by apply Hi|done]. }
    destruct (IH s1 (S h) nodes1 ts1) as (s' & h' & t & E' & X1 & X2 & X3 & X4 & X5 & X6 & X7 & X8 & X9 & _); try done.
    + intros ->. done.
    + lia.
    + by rewrite Rf.
    + intros E1. rewrite Rlen. by apply Ho'.
    + rewrite Rid. apply NoDup_app. split_and!; [done| |apply NoDup_ListNoDup, seq_NoDup].
      intros i Hin Hin2. specialize (Hidlt _ Hin). apply elem_of_list_In, in_seq in Hin2. lia.
    + intros i n Hin. rewrite Rid, elem_of_app. rewrite Rn in Hin.
      destruct (decide (i < length (inners s))) as [Hl|Hl].
      * left. rewrite lookup_app_l in Hin by done. by eapply Hgb.
      * right. apply elem_of_list_In, in_seq. apply lookup_lt_Some in Hin. rewrite app_length, map_length in Hin. lia.
    + intros t0 ->. by apply Rsing.
    + exists s', h', t. rewrite E'. split_and!; try done; [congruence|congruence| | |].
      2:{ intros b0 Hb0. by apply X9, Rb. }
      2:{ intros E0 _. by apply X9, Rb0. }
      intros Hor. apply X8. destruct (decide (length ts mod 65 = 1)) as [Hm|Hm]; [left; apply Ror; by right|].
      destruct Hor as [Hor|Hor]; [left; apply Ror; by left|]. right. rewrite Rlen. intros Hn. apply Hor. by constructor.
Qed.

(** ** Leaves *)
Lemma lrep_first (c : list (K * V)) : lrep [Some (mk_leaf c None None)] [(0, c)].
Proof.
  split; simpl.
  - done.
  - constructor; [by intros ?%elem_of_nil|constructor].
  - intros [|i] l H; [constructor|]. by destruct i.
Qed.

Lemma lrep_snoc (ls : list (option (leaf K V))) pre p kvs c : lrep ls (pre ++ [(p, kvs)]) ->
  lrep (<[length ls := Some (mk_leaf c (Some p) None)]>
     (<[p := Some (mk_leaf kvs (last_id None pre) (Some (length ls)))]> (ls ++ [None])))
    ((pre ++ [(p, kvs)]) ++ [(length ls, c)]).
Proof.
  intros H. rewrite <- app_assoc. eapply (lrep_split _ _ pre p kvs kvs c []); [exact H|done|done].
Qed.

Lemma take_nonnil {X} (l : list X) m : 0 < m -> l <> [] -> take m l <> [].
Proof. intros Hm Hl. destruct l; [done|]. destruct m; [lia|done]. Qed.

Lemma bulk_leaves_ok fuel (s : store) data segs nodes count : length data < fuel ->
  lrep (leaves s) segs -> (segs = [] -> leaves s = []) -> Forall (fun sg => length sg.2 <= 64) segs ->
  asc_if data ->
  exists (s' : store) nodes' ts, bulk_leaves fuel s data (last_id None segs) nodes count =
      Ok (s', nodes ++ nodes', count + length data) /\
    lrel (match segs with [] => false | _ => true end) nodes' ts /\ Forall good ts /\
    inners s' = inners s /\ lrep (leaves s') (segs ++ csegs ts) /\ Forall (fun t => exists id kvs, t = TLeaf id kvs) ts /\
    (ts <> [] -> chs (fun b' => shape b' 0) true ts) /\ cflat ts = data /\ length ts = (length data + 63) / 64.
Proof.
  revert s data segs nodes count. induction fuel as [|fuel IH]; intros s data segs nodes count Hf Hl H0 Hz Ha; [lia|].
  cbn [bulk_leaves]. unfold leaf_set_data. rewrite leaf_new_mk. rewrite leaf_set_data_mk by (simpl; unfold LEAF_N; lia).
  rewrite obind_Ok. cbn [app]. change LEAF_N with 64. cbn [l_size mk_leaf].
  destruct (decide (data = [])) as [->|Hd].
  { rewrite take_nil. cbn. exists s, [], []. rewrite !app_nil_r, Nat.add_0_r. split_and!; try done; by destruct segs. }
  pose proof (take_nonnil data 64 ltac:(lia) Hd) as Htn.
  rewrite decide_False by (by destruct (take 64 data)).
  cbn [reserve_leaf]. rewrite leaf_set_prev_mk.
  set (id := length (leaves s)). set (c := take 64 data) in *. set (rest := drop 64 data).
  assert (length c <= 64) as Hc64 by (unfold c; rewrite take_length; lia).
  assert (data = c ++ rest) as Ed by (unfold c, rest; by rewrite take_drop).
  pose proof Ha as Ha'. rewrite Ed in Ha'. apply asc_app in Ha' as [Hac Har].
  assert (exists s1 : store, (match last_id None segs with
       | Some p => let! pl := get_leaf (set_leaves s (leaves s ++ [None])) p in
                   Ok (put_leaf (set_leaves s (leaves s ++ [None])) p (leaf_set_next pl (Some id)))
       | None => Ok (set_leaves s (leaves s ++ [None])) end) = Ok s1 /\ inners s1 = inners s /\
      (length (leaves s1) = S id /\ leaves s1 !! id = Some None) /\
      lrep (<[id := Some (mk_leaf c (last_id None segs) None)]> (leaves s1)) (segs ++ [(id, c)])) as (s1 & Es1 & Ei1 & [Hl1 Hn1] & Hlr1).
  { destruct segs as [|[p kvs] segs _] using rev_ind.
    - simpl. eexists. split; [done|]. split; [done|]. simpl. rewrite app_length. unfold id. rewrite H0 by done. simpl.
      split; [done|]. apply lrep_first.
    - rewrite last_id_None. cbn [fst]. unfold get_leaf. cbn [leaves set_leaves].
      pose proof Hl as Hlk. apply (lrep_lookup _ segs p kvs []) in Hlk. simpl in Hlk.
      rewrite lookup_app_l by (by eapply lookup_lt_Some). rewrite Hlk, obind_Ok, leaf_set_next_mk.
      eexists. split; [done|]. split; [done|]. cbn [leaves put_leaf set_leaves]. split.
      { split; [rewrite insert_length, app_length; simpl; unfold id; lia|].
        apply lookup_lt_Some in Hlk. unfold id. rewrite list_lookup_insert_ne by lia. by apply lookup_middle'. }
      by apply lrep_snoc. }
  rewrite Es1, obind_Ok.
  assert (exists r, leaf_key_range (mk_leaf c (last_id None segs) None) = Ok r /\
     (segs <> [] -> fst r = fst <$> head c)) as (r & Er & Hr).
  { unfold leaf_key_range. cbn [l_size mk_leaf]. rewrite decide_True by (by destruct c). cbn [l_prev l_next l_keys].
    destruct c as [|[k v] c']; [done|].
    destruct segs as [|sg segs _] using rev_ind.
    - simpl. eexists. split; [done|]. done.
    - rewrite last_id_None. cbn [l_keys mk_leaf]. rewrite (slot_get_mk _ _ _ k) by done. rewrite !obind_Ok. eexists. split; [done|]. done. }
  rewrite Er, obind_Ok. unfold leaf_aug. rewrite leaf_keys_mk, obind_Ok by done. rewrite leaf_values_mk, !obind_Ok by done.
  unfold assign_leaf. rewrite Hn1, !obind_Ok.
  assert (Some id = last_id None (segs ++ [(id, c)])) as -> by (by rewrite last_id_None).
  assert (length c + length rest = length data) as Hlen by (rewrite Ed, app_length; done).
  assert (0 < length c) as Hcpos by (destruct c; [done|simpl; lia]).
  destruct (IH (put_leaf s1 id (mk_leaf c (last_id None segs) None)) rest (segs ++ [(id, c)])
    (nodes ++ [(NLeaf id, r, from_leaf (keysof c) (valsof c))]) (count + length c))
    as (s' & nodes' & ts & E & Rr & Rg & Ri & Rl & Rt & Rs & Rf & Rlen); try done.
  { lia. }
  { intros E. by destruct segs. }
  { apply Forall_app. split; [done|]. by constructor. }
  exists s', ((NLeaf id, r, from_leaf (keysof c) (valsof c)) :: nodes'), (TLeaf id c :: ts).
  assert (length rest = length data - 64) as Hrest by (unfold rest; apply drop_length).
  assert (length c = length data `min` 64) as Hcl by (unfold c; rewrite take_length; lia).
  split_and!.
  - etransitivity; [exact E|]. rewrite <- app_assoc. do 2 f_equal. lia.
  - split_and!; [done| |].
    + destruct segs as [|sg segs]; [done|]. unfold srel, bl_start, start_of. rewrite flat_leaf. simpl. by apply Hr.
    + destruct (segs ++ [(id, c)]) eqn:E0; [by destruct segs|]. destruct nodes', ts; try done.
      destruct Rr as (X1 & X2 & X3). constructor; [by split|done].
  - constructor; [|done]. by apply good_leaf.
  - by rewrite Ri.
  - rewrite <- app_assoc in Rl. done.
  - constructor; [by eexists _, _|done].
  - intros _. destruct ts as [|t ts].
    + simpl. lia.
    + change (TLeaf id c :: t :: ts) with ([TLeaf id c] ++ t :: ts). apply chs_app2; [done|]. split; [|by apply Rs].
      constructor; [|constructor]. simpl. assert (rest <> []) as Hrn.
      { intros E0. rewrite E0 in Rlen. simpl in Rlen. done. }
      assert (0 < length rest) by (destruct rest; [done|simpl; lia]). lia.
  - unfold cflat in *. cbn [map concat]. rewrite flat_leaf, Rf. done.
  - cbn [length]. rewrite Rlen, Hrest. destruct (decide (64 <= length data)).
    + replace (length data + 63) with (length data - 64 + 63 + 1 * 64) by lia. rewrite Nat.div_add by lia. lia.
    + replace (length data - 64) with 0 by lia. change ((0 + 63) / 64) with 0.
      apply (Nat.div_unique _ 64 1 (length data - 1)); lia.
Qed.

Lemma cflat_csegs (ts : list tr) : cflat ts = concat (map snd (csegs ts)).
Proof. unfold cflat, csegs. apply concat_map_flat. Qed.

Lemma bulk_items_ok items : asc_if items -> items <> [] ->
  (ri = 1 -> no_orphan ((length items + 63) / 64)) ->
  exists (s : store) nodes count s' root T h t,
    bulk_leaves (S (length items)) store_default items None [] 0 = Ok (s, nodes, count) /\
    build_inner_layer (length nodes) s nodes = Ok (s', root) /\
    new_from_parts s' root count = Ok T /\ InvAt (A:=A) 1 ri SYNC T h t /\ flat t = items /\ t_len T = length items /\
    (~ no_orphan ((length items + 63) / 64) -> orph t /\ bottom (bool_decide (((length items + 63) / 64) mod 65 = 1)) t) /\ (forall i, ~ stray (inners (t_store T)) t i).
Proof.
  intros Ha Hn Ho.
  destruct (bulk_leaves_ok (S (length items)) store_default items [] [] 0) as
    (s & nodes & ts & E & Rr & Rg & Ri & Rl & Rt & Rs & Rf & Rlen); try done.
  { lia. }
  { split; simpl; [done|constructor|done]. }
  assert (ts <> []) as Hts. { intros ->. by unfold cflat in Rf. }
  assert (length nodes = length ts) as Hln by (eapply Forall2_length, lrel_Forall2; done).
  assert (cids ts = []) as Hcid.
  { clear -Rt. unfold cids. induction Rt as [|t ts (id & kvs & ->) Hf IH]; [done|]. simpl. done. }
  destruct (build_layers_ok (length nodes) s 0 nodes ts) as (s' & h & t & E' & X1 & X2 & X3 & X4 & X5 & X6 & X7 & X8 & _ & X9); try done.
  { lia. }
  { eapply Forall_impl; [exact Rt|]. intros x (id & kvs & ->). done. }
  { by apply Rs. }
  { by rewrite Rf. }
  { rewrite Rlen. done. }
  { rewrite Hcid. constructor. }
  { intros i n. rewrite Ri. done. }
  { intros t0 ->. specialize (Rs Hts). simpl in Rs. destruct t0; [|done]. simpl in *. lia. }
  simpl app in *. rewrite <- X5 in Rl. rewrite <- X4 in Rl.
  assert (flat t = items) as Hfl by (unfold flat; rewrite X4, <- cflat_csegs; done).
  destruct (new_aug_ok 1 ri SYNC s' h t _ _ X2 X3) as (a & Eau & Hau).
  { apply lrep_lvok'; [done|]. by eapply nshape_segs. }
  eexists s, nodes, _, s', (nid t), _, h, t. split; [exact E|]. split; [exact E'|].
  unfold new_from_parts. rewrite decide_True by (destruct items; [done|simpl; lia]). rewrite Eau, obind_Ok.
  split; [done|]. split; [|split; [done|split; [done|]]]; [|split; [intros Hor; rewrite <- Rlen in *; split; [apply X8; by right|apply X9; [done|];
    destruct (decide (length ts = 1)) as [E1|]; [destruct Hor; rewrite E1; constructor|destruct ts; [done|simpl in *; lia]]]|intros i [[n Hi] Hno]; apply Hno; by eapply X7]]. split; simpl; try done.
  - apply X1.
  - by rewrite Hfl.
  - intros HS. left. by apply Hau.
  - intros i n Hin. left. by eapply X7.
Qed.
End BulkProof.
