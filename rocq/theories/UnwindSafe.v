(** What an interrupted removal leaves behind as long as it has not merged
    leaves: every lookup is still safe. *)
From stdpp Require Import list sorting.
From Verif Require Import Base Slots BinSearch LeafNode InnerNode Store Tree Remove Unwind
  SlotLemmas NodeLemmas Spec AnySpec Order Logical Descent InsertProof InvLemmas InsertTop
  RemoveLeaf RemoveInner RemoveProof RemoveTop Lookup UnwindSpec UnwindProof.

(** ** Inversion *)
Section Inv.
Lemma ubind_inv {X Y S} (u : outcome (fin X S)) (f : X -> nat -> outcome (fin Y S)) r :
  ubind u f = Ok r ->
  (exists s, u = Ok (Unw s) /\ r = Unw s) \/ (exists x n, u = Ok (Fin x n) /\ f x n = Ok r).
Proof. destruct u as [[x n|s]| | | |]; simpl; intros H; try done; [right; eauto|left]. injection H as <-. eauto. Qed.
Lemma aug_call_inv {B S} n (s : S) (e : outcome B) r : aug_call n s e = Ok r ->
  r = Unw s \/ exists b m, r = Fin b m /\ e = Ok b.
Proof. destruct e, n; simpl; intros H; try done; injection H as <-; eauto. Qed.
Lemma ubind_call_inv {B Y S} n (s : S) (e : outcome B) (f : B -> nat -> outcome (fin Y S)) r :
  ubind (aug_call n s e) f = Ok r -> r = Unw s \/ exists b m, f b m = Ok r.
Proof.
  intros H. apply ubind_inv in H as [(s' & H & ->)|(x & m & H & E)].
  - apply aug_call_inv in H as [H|(b & m & H & _)]; [left; congruence|done].
  - right. eauto.
Qed.
End Inv.

Section Safe.
Context {K V A : Type} {KO : KeyOps K} {PF : Profile} {AO : AugOps K V A}.
Implicit Types (s : store K V A) (E : list (K * V)).

(** ** Leaves *)
Definition good (E : list (K * V)) (l : leaf K V) : Prop :=
  exists kvs pv nx, l = mk_leaf kvs pv nx /\ length kvs <= 64 /\
    (kvs = [] -> pv = None /\ nx = None) /\ kvs ⊆ E.
Definition live_ok E s : Prop := forall i l, leaves s !! i = Some (Some l) -> good E l.

Lemma live_put E s i l : live_ok E s -> good E l -> live_ok E (put_leaf s i l).
Proof.
  intros H Hl j l' Hj. unfold put_leaf in Hj. cbn [leaves set_leaves] in Hj.
  destruct (decide (i = j)) as [->|Hn].
  - destruct (decide (j < length (leaves s))).
    + rewrite list_lookup_insert in Hj by done. by injection Hj as <-.
    + rewrite list_insert_ge in Hj by lia. by apply (H j).
  - rewrite list_lookup_insert_ne in Hj by done. by apply (H j).
Qed.
Lemma live_leaves E s s' : leaves s' = leaves s -> live_ok E s -> live_ok E s'.
Proof. intros Es H i l. rewrite Es. apply H. Qed.
Lemma live_get E s i l : live_ok E s -> get_leaf s i = Ok l -> good E l.
Proof. unfold get_leaf. intros H. destruct (leaves s !! i) as [[x|]|] eqn:Ei; intros E'; try done. injection E' as <-. by apply (H i). Qed.


Lemma delete_sub (kvs : list (K * V)) i E : kvs ⊆ E -> delete i kvs ⊆ E.
Proof.
  intros H x Hx. apply H. eapply elem_of_submseteq; [exact Hx|]. apply sublist_submseteq, sublist_delete.
Qed.

Lemma delete_at_inv (kvs : list (K * V)) pv nx i kv l : length kvs <= 64 ->
  leaf_delete_at (mk_leaf kvs pv nx) i = Ok (kv, l) ->
  kvs !! i = Some kv /\ l = mk_leaf (delete i kvs) pv nx.
Proof.
  intros Hl H.
  assert (exists kv', kvs !! i = Some kv') as [kv' E].
  { apply lookup_lt_is_Some_2. unfold leaf_delete_at, slice_remove in H. cbn [l_keys l_size mk_leaf] in H.
    destruct (decide (_ <= _)); [|done]. destruct (decide (i < length kvs)); [done|by destruct dev]. }
  rewrite (leaf_delete_at_mk _ _ _ _ _ E) in H by (unfold LEAF_N; lia). by injection H as -> <-.
Qed.

Lemma delete_with_push_inv (kvs : list (K * V)) pv nx i item kv l : length kvs <= 64 ->
  leaf_delete_with_push (mk_leaf kvs pv nx) i item = Ok (kv, l) ->
  kvs !! i = Some kv /\ l = mk_leaf (delete i kvs ++ [item]) pv nx.
Proof.
  intros Hl H.
  assert (exists kv', kvs !! i = Some kv') as [kv' E].
  { apply lookup_lt_is_Some_2. unfold leaf_delete_with_push, slice_remove in H. cbn [l_keys l_size mk_leaf] in H.
    destruct (decide (_ <= _)); [|done]. destruct (decide (i < length kvs)); [done|by destruct dev]. }
  rewrite (leaf_delete_with_push_mk _ _ _ _ _ _ E) in H by (unfold LEAF_N; lia). by injection H as -> <-.
Qed.

Lemma delete_with_push_front_inv (kvs : list (K * V)) pv nx i item kv l : length kvs <= 64 ->
  leaf_delete_with_push_front (mk_leaf kvs pv nx) i item = Ok (kv, l) ->
  kvs !! i = Some kv /\ l = mk_leaf (item :: delete i kvs) pv nx.
Proof.
  intros Hl H.
  assert (exists kv', kvs !! i = Some kv') as [kv' E].
  { apply lookup_lt_is_Some_2. unfold leaf_delete_with_push_front, slot_take in H. cbn [l_keys mk_leaf] in H.
    destruct (decide _); [|done]. destruct (mk_slots LEAF_N (keysof kvs) !! i) as [[x|]|] eqn:Ex; [|done..].
    apply slot_mk_lt in Ex. by rewrite keysof_length in Ex. }
  rewrite (leaf_delete_with_push_front_mk _ _ _ _ _ _ E) in H by (unfold LEAF_N; lia). by injection H as -> <-.
Qed.

Lemma good_pop E l kv l' : good E l -> leaf_able_to_lend l = true -> leaf_pop l = Ok (kv, l') -> kv ∈ E /\ good E l' /\ 16 <= l_size l'.
Proof.
  intros (kvs & pv & nx & -> & Hl & Hn & Hs) Hd H. unfold leaf_pop in H. rewrite Hd in H.
  apply bool_decide_eq_true in Hd. unfold leaf_minimum_size in Hd. cbn [l_size mk_leaf] in Hd.
  apply obind_Ok_inv in H as (i & _ & H). apply delete_at_inv in H as [H ->]; [|done].
  pose proof (length_delete kvs i ltac:(eauto)) as Hd'.
  split; [apply Hs; by eapply elem_of_list_lookup_2|]. split; [|simpl; lia].
  exists (delete i kvs), pv, nx. split_and!; [done|lia| |by apply delete_sub].
  intros Ez. rewrite Ez in Hd'. simpl in Hd'. lia.
Qed.
Lemma good_pop_front E l kv l' : good E l -> leaf_able_to_lend l = true -> leaf_pop_front l = Ok (kv, l') -> kv ∈ E /\ good E l' /\ 16 <= l_size l'.
Proof.
  intros (kvs & pv & nx & -> & Hl & Hn & Hs) Hd H. unfold leaf_pop_front in H. rewrite Hd in H.
  apply bool_decide_eq_true in Hd. unfold leaf_minimum_size in Hd. cbn [l_size mk_leaf] in Hd.
  apply delete_at_inv in H as [H ->]; [|done].
  pose proof (length_delete kvs 0 ltac:(eauto)) as Hd'.
  split; [apply Hs; by eapply elem_of_list_lookup_2|]. split; [|simpl in *; lia].
  exists (delete 0 kvs), pv, nx. split_and!; [done|lia| |by apply delete_sub].
  intros Ez. rewrite Ez in Hd'. simpl in Hd'. lia.
Qed.
Lemma good_push E l i kv kv' l' : good E l -> kv ∈ E -> leaf_delete_with_push l i kv = Ok (kv', l') -> good E l'.
Proof.
  intros (kvs & pv & nx & -> & Hl & Hn & Hs) Hkv H. apply delete_with_push_inv in H as [H ->]; [|done].
  pose proof (length_delete kvs i ltac:(eauto)) as Hd. pose proof (lookup_lt_Some _ _ _ H).
  eexists _, pv, nx. split_and!; [done|rewrite app_length; simpl; lia|by intros []%app_nil|].
  intros x [Hx| ->%elem_of_list_singleton]%elem_of_app; [|done]. by eapply delete_sub.
Qed.
Lemma good_push_front E l i kv kv' l' : good E l -> kv ∈ E -> leaf_delete_with_push_front l i kv = Ok (kv', l') -> good E l'.
Proof.
  intros (kvs & pv & nx & -> & Hl & Hn & Hs) Hkv H. apply delete_with_push_front_inv in H as [H ->]; [|done].
  pose proof (length_delete kvs i ltac:(eauto)) as Hd. pose proof (lookup_lt_Some _ _ _ H).
  eexists _, pv, nx. split_and!; [done|simpl; lia|done|].
  intros x [->|Hx]%elem_of_cons; [done|]. by eapply delete_sub.
Qed.

(** ** Nodes *)
Fixpoint safe_at s (h : nat) (node : node_id) : Prop :=
  match h, node with
  | 0, NLeaf id => exists l, leaves s !! id = Some (Some l)
  | S h', NInner id => exists n, inners s !! id = Some (Some n) /\ (exists ks, inner_keys n = Ok ks) /\
      forall j, j <= i_size n -> exists c, inner_child_id n j = Ok c /\ safe_at s h' c
  | _, _ => False
  end.

Definition ikeep (n n' : inner K A) : Prop :=
  i_size n' = i_size n /\ i_child n' = i_child n /\
  forall ks, inner_keys n = Ok ks -> exists ks', inner_keys n' = Ok ks'.
Lemma ikeep_refl n : ikeep n n.
Proof. split_and!; eauto. Qed.
Lemma ikeep_trans a b c : ikeep a b -> ikeep b c -> ikeep a c.
Proof.
  intros (H1 & H2 & H3) (G1 & G2 & G3). split_and!; [congruence..|].
  intros ks (ks' & Hk)%H3. by apply (G3 ks').
Qed.
Lemma ikeep_aug n i a n' : inner_set_augmentation n i a = Ok n' -> ikeep n n'.
Proof.
  intros ([x aus] & _ & E)%obind_Ok_inv. injection E as <-. split_and!; [done..|]. intros ks H. by exists ks.
Qed.
Lemma slots_all_insert {T} (l : slots T) i x l' : slots_all l = Ok l' -> exists l'', slots_all (<[i := Some x]> l) = Ok l''.
Proof.
  revert i l'. induction l as [|[y|] l IH]; intros i l' H; simpl in *; [eauto| |done].
  apply obind_Ok_inv in H as (l0 & E & _). destruct i as [|i]; simpl.
  - rewrite E. simpl. eauto.
  - destruct (IH i _ E) as (l'' & E''). change (list_insert i (Some x) l) with (<[i:=Some x]> l). rewrite E''. simpl. eauto.
Qed.
Lemma ikeep_key n i k o n' : inner_set_key n i k = Ok (o, n') -> ikeep n n'.
Proof.
  unfold inner_set_key, slot_replace. destruct (i_keys n !! i) as [[y|]|] eqn:Ey; simpl; try done.
  intros E. injection E as <- <-. split_and!; [done..|]. intros ks. unfold inner_keys, slots_prefix. simpl.
  rewrite insert_length. destruct (decide _); [|done]. intros H.
  destruct (decide (i < i_size n)).
  - rewrite take_insert_lt by done. by eapply slots_all_insert.
  - rewrite take_insert by lia. eauto.
Qed.

Definition keeps s s' : Prop :=
  (forall i n, inners s !! i = Some (Some n) -> exists n', inners s' !! i = Some (Some n') /\ ikeep n n') /\
  (forall i l, leaves s !! i = Some (Some l) -> exists l', leaves s' !! i = Some (Some l')) /\
  length (inners s') = length (inners s).
Lemma keeps_refl s : keeps s s.
Proof. split_and!; [|eauto|done]. intros i n H. exists n. split; [done|apply ikeep_refl]. Qed.
Lemma keeps_trans a b c : keeps a b -> keeps b c -> keeps a c.
Proof.
  intros (H1 & H2 & H3) (G1 & G2 & G3). split_and!; [| |congruence].
  - intros i n (n' & E & Hk)%H1. apply G1 in E as (n'' & E & Hk'). exists n''. split; [done|]. by eapply ikeep_trans.
  - intros i l (l' & E)%H2. by apply G2 in E.
Qed.
Lemma keeps_leaf s i l : keeps s (put_leaf s i l).
Proof.
  split_and!; [| |done]; unfold put_leaf; cbn [inners leaves set_leaves].
  - intros j n H. exists n. split; [done|apply ikeep_refl].
  - intros j l0 H. destruct (decide (i = j)) as [->|Hn].
    + rewrite list_lookup_insert by (by eapply lookup_lt_Some). eauto.
    + rewrite list_lookup_insert_ne by done. eauto.
Qed.
Lemma keeps_inner s s' pid n n' : keeps s s' -> inners s' = inners s -> get_inner s pid = Ok n -> ikeep n n' ->
  keeps s (put_inner s' pid n').
Proof.
  intros (H1 & H2 & H3) Ei Hg Hk. unfold get_inner in Hg.
  destruct (inners s !! pid) as [[x|]|] eqn:Ex; [|done..]. injection Hg as ->.
  split_and!; unfold put_inner; cbn [inners leaves set_inners].
  - intros j m Hj. destruct (decide (pid = j)) as [->|Hn].
    + rewrite Ex in Hj. injection Hj as <-. exists n'. split; [|done].
      apply list_lookup_insert. rewrite H3. by eapply lookup_lt_Some.
    + rewrite list_lookup_insert_ne by done. by apply H1.
  - done.
  - by rewrite insert_length.
Qed.

Lemma safe_keeps s s' h node : keeps s s' -> safe_at s h node -> safe_at s' h node.
Proof.
  intros (H1 & H2 & _). revert node. induction h as [|h IH]; intros [id|id]; simpl; try done.
  - intros (l & E). by apply (H2 id l).
  - intros (n & E & (ks & Hk) & Hc). apply H1 in E as (n' & E & K1 & K2 & K3).
    exists n'. split_and!; [done|by eapply K3|]. intros j. rewrite K1. intros (c & Ec & Hs)%Hc.
    exists c. split; [|by apply IH]. unfold inner_child_id in *. by rewrite K2.
Qed.

Lemma slots_all_length {T} (l : slots T) ks : slots_all l = Ok ks -> length ks = length l.
Proof.
  revert ks. induction l as [|[x|] l IH]; intros ks H; simpl in *; [by injection H as <-| |done].
  apply obind_Ok_inv in H as (l0 & E & H). injection H as <-. simpl. by rewrite (IH _ E).
Qed.

Lemma descend_safe s h node p fuel : safe_at s h node -> h <= fuel ->
  exists id l, descend_to_leaf fuel s node p = Ok id /\ leaves s !! id = Some (Some l).
Proof.
  revert node fuel. induction h as [|h IH]; intros [id|id] fuel Hs Hf; simpl in Hs; try done.
  - destruct Hs as (l & E). exists id, l. by destruct fuel.
  - destruct fuel as [|fuel]; [lia|]. destruct Hs as (n & E & (ks & Hk) & Hc).
    cbn [descend_to_leaf]. unfold get_inner, inner_locate_child. rewrite E, obind_Ok, Hk, obind_Ok.
    assert (length ks = i_size n) as Hlk.
    { unfold inner_keys, slots_prefix in Hk. destruct (decide _); [|done]. apply slots_all_length in Hk.
      rewrite take_length in Hk. lia. }
    destruct (binary_search_any p ks) as (r & -> & Hr). rewrite obind_Ok.
    destruct r as [i|i].
    + destruct Hr as (a & x & b & -> & <- & _). rewrite app_length in Hlk. simpl in Hlk.
      destruct (Hc (length a + 1) ltac:(lia)) as (c & -> & Hs). rewrite !obind_Ok. apply IH; [done|lia].
    + destruct Hr as (a & b & -> & <- & _). rewrite app_length in Hlk.
      destruct (Hc (length a) ltac:(lia)) as (c & -> & Hs). rewrite !obind_Ok. apply IH; [done|lia].
Qed.

Lemma in_range_safe E l p : good E l -> exists b, leaf_in_range l p = Ok b.
Proof.
  intros (kvs & pv & nx & -> & Hl & Hn & _). unfold leaf_in_range. cbn [l_prev l_next l_size l_keys mk_leaf].
  destruct kvs as [|kv kvs].
  { destruct (Hn eq_refl) as [-> ->]. simpl. eauto. }
  assert (exists b, match pv with
     | Some _ => let! x := slot_get (mk_slots LEAF_N (keysof (kv :: kvs))) 0 in Ok match p x with Gt => true | _ => false end
     | None => Ok false end = Ok b) as (b & ->).
  { destruct pv; [|eauto]. rewrite (slot_get_mk _ _ _ kv.1) by done. simpl. eauto. }
  rewrite obind_Ok. destruct b; [eauto|].
  destruct nx; [|simpl; eauto]. cbn [length usize_pred]. rewrite obind_Ok.
  destruct (lookup_lt_is_Some_2 (keysof (kv :: kvs)) (length kvs) ltac:(rewrite keysof_length; simpl; lia)) as [x Hx].
  rewrite (slot_get_mk _ _ _ x Hx). simpl. eauto.
Qed.

Lemma find_safe E s p id l : live_ok E s -> leaves s !! id = Some (Some l) ->
  exists o, find_in_leaf s id p = Ok o /\ get_any p E o.
Proof.
  intros Hlv Hi. destruct (Hlv id l Hi) as (kvs & pv & nx & -> & Hl & _ & Hs).
  destruct (find_leaf (OM:=om_false) (OI:=ord_if_false K KO) s p id kvs pv nx Hi Hl ltac:(intros []) ltac:(intros []))
    as (o & -> & Ho & _). exists o. split; [done|]. destruct o as [v|]; [|done].
  destruct Ho as (k & Hk & Hp). exists k. split; [by apply Hs|done].
Qed.

Lemma get_safe E (T : tree K V A) h c p : safe_at (t_store T) h (t_root T) ->
  h <= descend_fuel (t_store T) -> live_ok E (t_store T) ->
  exists o c', get (recached T c) p = Ok (o, recached T c') /\ get_any p E o.
Proof.
  intros Hs Hf Hl. unfold get, recached. cbn [t_store with_store t_root].
  set (s := mkStore _ _ c).
  assert (safe_at s h (t_root T)) as Hs'.
  { eapply safe_keeps; [|exact Hs]. split_and!; [|eauto|done]. intros i n H. exists n. split; [done|apply ikeep_refl]. }
  assert (live_ok E s) as Hl' by done.
  assert (exists o, try_cache s p = Ok o /\ match o with Some id => exists l, leaves s !! id = Some (Some l) | None => True end) as (o & -> & Ho).
  { unfold try_cache, check_cache. cbn [cached s]. destruct c as [id|]; [|by exists None].
    unfold try_get_leaf. destruct (leaves s !! id) as [[l|]|] eqn:El; [|by exists None..].
    destruct (in_range_safe E l p (Hl' id l El)) as (b & ->). rewrite obind_Ok. exists (if b then Some id else None).
    split; [done|]. destruct b; eauto. }
  rewrite obind_Ok. destruct o as [id|].
  - destruct Ho as (l & Hi). destruct (find_safe E s p id l Hl' Hi) as (o & -> & Hoa). rewrite obind_Ok.
    exists o, c. done.
  - destruct (descend_safe s h (t_root T) p (descend_fuel s) Hs' Hf) as (id & l & -> & Hi). rewrite obind_Ok.
    change (find_in_leaf (cache_leaf s id) id p) with (find_in_leaf s id p).
    destruct (find_safe E s p id l Hl' Hi) as (o & -> & Hoa). rewrite obind_Ok. exists o, (Some id). done.
Qed.

(** ** The tree before *)
Section Start.
Context {OM : OrdMode} {OI : OrdIf K}.
Context (rl ri : nat) (Hrl : 1 <= rl).

Lemma irep_safe s h (t : tr K V) : irep False (inners s) h t ->
  (exists m b, nshape rl ri m b h t) ->
  (forall id kvs, (id, kvs) ∈ leaf_seq t -> exists l, leaves s !! id = Some (Some l)) -> safe_at s h (nid t).
Proof.
  intros Hir. revert t Hir. induction h as [|h IH]; intros [id kvs|id ks ch]; simpl; try done.
  - intros _ _ H. apply (H id kvs). by constructor.
  - intros [(aus & Hi & Ha & _) Hf] (m & b & (H1 & H2) & H3 & H4) Hl.
    exists (mk_inner ks (map nid ch) aus). split_and!; [done| |].
    + exists ks. apply inner_keys_mk. unfold inner_fits, INNER_N. rewrite map_length. lia.
    + cbn [i_size mk_inner]. intros j Hj. destruct (lookup_lt_is_Some_2 ch j ltac:(lia)) as [c Hc].
      exists (nid c). split; [apply inner_child_id_mk; change (map nid ch) with (nid <$> ch); by rewrite list_lookup_fmap, Hc|].
      pose proof (elem_of_list_lookup_2 _ _ _ Hc) as Hin.
      apply IH; [rewrite Forall_forall in Hf; by apply Hf| |].
      * destruct (chs_elem _ _ _ _ H4 Hin) as [H|H]; apply shape_nshape in H; eauto.
      * intros i kvs Hi'. apply (Hl i kvs). apply elem_of_list_In, in_concat. exists (leaf_seq c).
        split; [apply in_map|]; by apply elem_of_list_In.
Qed.

Lemma inv_safe T h t : InvAt rl ri False T h t -> safe_at (t_store T) h (t_root T) /\ live_ok (flat t) (t_store T).
Proof.
  intros HI. pose proof (inv_lrep _ _ _ _ _ _ HI) as [L1 L2 L3]. split.
  - rewrite (inv_root _ _ _ _ _ _ HI). apply irep_safe; [apply HI|eexists _, _; apply HI|].
    intros id kvs (x & y & E)%elem_of_list_split. rewrite E in L1. apply linked_lookup in L1. eauto.
  - intros i l Hi. pose proof (L3 i l Hi) as Hin. apply elem_of_list_fmap in Hin as ([i' kvs] & -> & Hin).
    simpl in *. pose proof Hin as (x & y & E)%elem_of_list_split. pose proof L1 as L1'. rewrite E in L1'. apply linked_lookup in L1'.
    rewrite Hi in L1'. injection L1' as ->. eexists _, _, _. split_and!; [done| | |].
    + pose proof (nshape_segs _ _ _ _ _ _ (inv_shape _ _ _ _ _ _ HI)) as Hz. rewrite Forall_forall in Hz. by apply (Hz _ Hin).
    + intros ->. destruct h as [|h].
      * pose proof (inv_shape _ _ _ _ _ _ HI) as Hsh. destruct t as [id kvs|id ks ch]; [|done]. simpl in E.
        destruct x as [|? [|? ?]]; [|done..]. by destruct y.
      * pose proof (nshape_nonempty rl ri Hrl _ _ _ _ (inv_shape _ _ _ _ _ _ HI)) as Hne. rewrite Forall_forall in Hne.
        by destruct (Hne _ Hin).
    + intros kv Hkv. unfold flat. apply elem_of_list_In, in_concat. exists kvs. split; [|by apply elem_of_list_In].
      apply elem_of_list_In. change (map snd (leaf_seq t)) with (snd <$> leaf_seq t). apply elem_of_list_fmap.
      exists (i', kvs). done.
Qed.
End Start.

(** ** Removal *)
Definition mc (st : statistic) : nat := merge_with_left_leaf st + merge_with_right_leaf st.
Definition fin_st {X} (f : fin (X * statistic) (store K V A * statistic)) : statistic :=
  match f with Fin (_, st) _ => st | Unw (_, st) => st end.

Ltac obi H := let x := fresh "x" in let Hx := fresh "Hx" in apply obind_Ok_inv in H as (x & Hx & H).

(** The leaf under child [idx] can give an entry away: what the choice of a rotation
    has found out. *)
Definition lends (s : store K V A) (node : inner K A) (idx : nat) : Prop :=
  forall c id l, inner_child_id node idx = Ok c -> leaf_id_unchecked c = Ok id -> get_leaf s id = Ok l ->
  leaf_able_to_lend l = true.
Lemma lends_sibling (b : Prop) (D : Decision b) (s : store K V A) node idx l :
  (if D then let! c := inner_child_id node idx in let! id := leaf_id_unchecked c in
             let! n := get_leaf s id in Ok (Some n)
   else Ok None) = Ok (Some l) -> leaf_able_to_lend l = true -> lends s node idx.
Proof.
  intros H Hl c id l' Hc Hid Hg. destruct D; [|done]. rewrite Hc, obind_Ok, Hid, obind_Ok, Hg, obind_Ok in H. by injection H as ->.
Qed.

Lemma rotate_right_leaf_safe E n s st pid node slot i r : live_ok E s -> get_inner s pid = Ok node -> lends s node slot ->
  u_rotate_right_leaf n s st pid node slot i = Ok r ->
  match r with
  | Unw (s', st') => keeps s s' /\ live_ok E s' /\ st' = st
  | Fin (_, s', node') _ => keeps s (put_inner s' pid node') /\ live_ok E s'
  end.
Proof.
  intros Hl Hg Hlend H. unfold u_rotate_right_leaf in H.
  obi H. obi H. obi H. obi H. apply obind_Ok_inv in H as (lft & Hlft & H).
  apply debug_assert_is_inv in H. apply obind_Ok_inv in H as ([kv lft'] & Hpop & H).
  assert (leaf_able_to_lend lft = true) as Hle by (by eapply Hlend).
  apply (live_get E) in Hlft; [|done]. apply (good_pop E) in Hpop as (Hkv & Hgl & _); [|done..].
  set (s1 := put_leaf s x0 lft') in *.
  assert (keeps s s1) as K1 by apply keeps_leaf. assert (live_ok E s1) as L1 by (by apply live_put).
  apply ubind_call_inv in H as [->|(la & m & H)].
  { split_and!; [|done|done]. by apply (keeps_inner s s1 pid node node K1 eq_refl Hg (ikeep_refl _)). }
  apply obind_Ok_inv in H as (node1 & Hn1 & H). apply ikeep_aug in Hn1.
  apply obind_Ok_inv in H as (rgt & Hrgt & H). apply obind_Ok_inv in H as ([kv' rgt'] & Hdel & H).
  apply (live_get E) in Hrgt; [|done]. apply (good_push_front E) in Hdel; [|done..].
  set (s2 := put_leaf s1 x2 rgt') in *.
  assert (keeps s s2) as K2 by (eapply keeps_trans; [exact K1|apply keeps_leaf]). assert (live_ok E s2) as L2 by (by apply live_put).
  apply ubind_call_inv in H as [->|(ra & m' & H)].
  { split_and!; [|done|done]. by apply (keeps_inner s s2 pid node node1 K2 eq_refl Hg). }
  apply obind_Ok_inv in H as (node2 & Hn2 & H). apply ikeep_aug in Hn2.
  apply obind_Ok_inv in H as ([? node3] & Hn3 & H). apply ikeep_key in Hn3. injection H as <-. split; [|done].
  apply (keeps_inner s (cache_leaf s2 x2) pid node node3 K2 eq_refl Hg).
  eapply ikeep_trans; [exact Hn1|]. by eapply ikeep_trans.
Qed.

Lemma rotate_left_leaf_safe E n s st pid node slot i r : live_ok E s -> get_inner s pid = Ok node -> lends s node (slot + 1) ->
  u_rotate_left_leaf n s st pid node slot i = Ok r ->
  match r with
  | Unw (s', st') => keeps s s' /\ live_ok E s' /\ st' = st
  | Fin (_, s', node') _ => keeps s (put_inner s' pid node') /\ live_ok E s'
  end.
Proof.
  intros Hl Hg Hlend H. unfold u_rotate_left_leaf in H.
  obi H. obi H. obi H. obi H. apply obind_Ok_inv in H as (rgt & Hrgt & H).
  apply debug_assert_is_inv in H. apply obind_Ok_inv in H as ([kv rgt'] & Hpop & H).
  assert (leaf_able_to_lend rgt = true) as Hle by (by eapply Hlend).
  apply (live_get E) in Hrgt; [|done]. apply (good_pop_front E) in Hpop as (Hkv & Hgl & _); [|done..].
  set (s1 := put_leaf s x2 rgt') in *.
  assert (keeps s s1) as K1 by apply keeps_leaf. assert (live_ok E s1) as L1 by (by apply live_put).
  apply ubind_call_inv in H as [->|(la & m & H)].
  { split_and!; [|done|done]. by apply (keeps_inner s s1 pid node node K1 eq_refl Hg (ikeep_refl _)). }
  apply obind_Ok_inv in H as (node1 & Hn1 & H). apply ikeep_aug in Hn1.
  apply obind_Ok_inv in H as ([k0 v0] & _ & H).
  apply obind_Ok_inv in H as (lft & Hlft & H). apply obind_Ok_inv in H as ([kv' lft'] & Hdel & H).
  apply (live_get E) in Hlft; [|done]. apply (good_push E) in Hdel; [|done..].
  set (s2 := put_leaf s1 x0 lft') in *.
  assert (keeps s s2) as K2 by (eapply keeps_trans; [exact K1|apply keeps_leaf]). assert (live_ok E s2) as L2 by (by apply live_put).
  apply ubind_call_inv in H as [->|(ra & m' & H)].
  { split_and!; [|done|done]. by apply (keeps_inner s s2 pid node node1 K2 eq_refl Hg). }
  apply obind_Ok_inv in H as (node2 & Hn2 & H). apply ikeep_aug in Hn2.
  apply obind_Ok_inv in H as ([? node3] & Hn3 & H). apply ikeep_key in Hn3. injection H as <-. split; [|done].
  apply (keeps_inner s (cache_leaf s2 x0) pid node node3 K2 eq_refl Hg).
  eapply ikeep_trans; [exact Hn1|]. by eapply ikeep_trans.
Qed.

(** The statistics an interrupted merge reports. *)
Lemma merge_leaf_left_st n s st pid node slot i s' st' :
  u_merge_leaf_left n s st pid node slot i = Ok (Unw (s', st')) -> st' = st.
Proof.
  intros H. unfold u_merge_leaf_left in H. obi H. obi H. obi H. obi H. obi H.
  destruct x3 as [rgt s1]. obi H. obi H. destruct x4 as [[kv lft] ?].
  apply ubind_call_inv in H as [H|(aa & mm & H)]; [by injection H|].
  obi H. obi H. obi H. destruct x6 as [[? ?] ?]. obi H. done.
Qed.
Lemma merge_leaf_right_st n s st pid node slot i s' st' :
  u_merge_leaf_right n s st pid node slot i = Ok (Unw (s', st')) -> st' = st.
Proof.
  intros H. unfold u_merge_leaf_right in H. obi H. obi H. obi H. obi H. obi H.
  destruct x3 as [rgt s1]. obi H. obi H. destruct x4 as [kv lft]. obi H. destruct x4 as [lft' ?].
  apply ubind_call_inv in H as [H|(aa & mm & H)]; [by injection H|].
  obi H. obi H. obi H. destruct x6 as [[? ?] ?]. obi H. done.
Qed.

Lemma handle_leaf_safe E n s st pid node ci ki r : live_ok E s -> get_inner s pid = Ok node ->
  u_handle_leaf n s st pid node ci ki = Ok r ->
  match r with
  | Unw (s', st') => mc st <= mc st' /\ (mc st' = mc st -> keeps s s' /\ live_ok E s')
  | Fin (r', s', st', node') _ => mc st <= mc st' /\
      (mc st' = mc st -> keeps s (put_inner s' pid node') /\ live_ok E s' /\ exists kv, r' = DrDone kv)
  end.
Proof.
  intros Hl Hg H. unfold u_handle_leaf in H. obi H. obi H. obi H. destruct x1.
  - apply choose_right in Hx1 as (l1 & -> & Hlend). apply lends_sibling in Hx; [|done].
    apply ubind_inv in H as [([s' st'] & H & ->)|([[kv s'] node'] & m & H & E')].
    + apply (rotate_right_leaf_safe E) in H as (H1 & H2 & ->); [|done..]. done.
    + apply (rotate_right_leaf_safe E) in H as (H1 & H2); [|done..]. injection E' as <-. split; [done|]. eauto.
  - apply choose_left in Hx1 as (l1 & -> & Hlend). apply lends_sibling in Hx0; [|done].
    apply ubind_inv in H as [([s' st'] & H & ->)|([[kv s'] node'] & m & H & E')].
    + apply (rotate_left_leaf_safe E) in H as (H1 & H2 & ->); [|done..]. done.
    + apply (rotate_left_leaf_safe E) in H as (H1 & H2); [|done..]. injection E' as <-. split; [done|]. eauto.
  - apply ubind_inv in H as [([s' st'] & H & ->)|([[kv s'] node'] & m & H & E')].
    + apply merge_leaf_left_st in H as ->. unfold mc, st_merge_with_left_leaf. simpl. split; lia.
    + injection E' as <-. unfold mc, st_merge_with_left_leaf. simpl. split; lia.
  - apply ubind_inv in H as [([s' st'] & H & ->)|([[kv s'] node'] & m & H & E')].
    + apply merge_leaf_right_st in H as ->. unfold mc, st_merge_with_right_leaf. simpl. split; lia.
    + injection E' as <-. unfold mc, st_merge_with_right_leaf. simpl. split; lia.
Qed.

Lemma rotate_right_inner_st n s st pid node slot s' st' :
  u_rotate_right_inner n s st pid node slot = Ok (Unw (s', st')) -> st' = st.
Proof.
  intros H. unfold u_rotate_right_inner in H. obi H. obi H. obi H. obi H. obi H. destruct (inner_able_to_lend x3); [|done].
  obi H. destruct x4 as [[[? ?] ?] ?]. 
  apply ubind_call_inv in H as [H|(aa & mm & H)]; [by injection H|].
  obi H. try destruct x4 as [? ?]. obi H. try destruct x5 as [? ?]. obi H. try destruct x6 as [? ?].
  apply ubind_call_inv in H as [H|(aa' & mm' & H)]; [by injection H|]. obi H. by obi H.
Qed.
Lemma rotate_left_inner_st n s st pid node slot s' st' :
  u_rotate_left_inner n s st pid node slot = Ok (Unw (s', st')) -> st' = st.
Proof.
  intros H. unfold u_rotate_left_inner in H. obi H. obi H. obi H. obi H. obi H. destruct (inner_able_to_lend x3); [|done].
  obi H. destruct x4 as [[[? ?] ?] ?]. 
  apply ubind_call_inv in H as [H|(aa & mm & H)]; [by injection H|].
  obi H. try destruct x4 as [? ?]. obi H. try destruct x5 as [? ?]. obi H. try destruct x6 as [? ?].
  apply ubind_call_inv in H as [H|(aa' & mm' & H)]; [by injection H|]. obi H. by obi H.
Qed.
Lemma merge_inner_st n s st pid node slot s' st' :
  u_merge_inner n s st pid node slot = Ok (Unw (s', st')) -> st' = st.
Proof.
  intros H. unfold u_merge_inner in H. apply debug_assert_inv in H. obi H. obi H. obi H. obi H. obi H.
  destruct x3 as [[? ?] ?]. obi H. destruct x3 as [? ?]. obi H. obi H. destruct x4 as [? ?]. obi H. obi H.
  apply ubind_call_inv in H as [H|(aa & mm & H)]; [by injection H|]. obi H. by obi H.
Qed.

Lemma handle_inner_mc n s st pid node ci (kv : K * V) r :
  u_handle_inner n s st pid node ci kv = Ok r ->
  match r with
  | Unw (s', st') => mc st' = mc st
  | Fin (r', s', st', node') _ => mc st' = mc st
  end.
Proof.
  intros H. unfold u_handle_inner in H.
  apply ubind_inv in H as [([s' st'] & H & ->)|([[d1 s1] node1] & m & H1 & H)].
  { destruct (decide _); [|done]. by apply rotate_right_inner_st in H as ->. }
  destruct d1; [by injection H as <-|].
  apply ubind_inv in H as [([s' st'] & H & ->)|([[d2 s2] node2] & m2 & H2 & H)].
  { destruct (decide (ci < i_size node1)); [|done]. by apply rotate_left_inner_st in H as ->. }
  destruct d2; [by injection H as <-|].
  assert (exists ms st1, (if decide (0 < ci) then (ci - 1, st_merge_with_left_inner st)
    else (ci, st_merge_with_right_inner st)) = (ms, st1) /\ mc st1 = mc st) as (ms & st1 & E & Hmc).
  { destruct (decide _); eexists _, _; split; done. }
  rewrite E in H.
  apply ubind_inv in H as [([s' st'] & H & ->)|([[r3 s3] node3] & m3 & H3 & H)].
  { by apply merge_inner_st in H as ->. }
  destruct r3; by injection H as <-.
Qed.

Definition st_of {X} (f : fin (X * statistic) (store K V A * statistic)) : statistic :=
  match f with Fin x _ => x.2 | Unw x => x.2 end.

Lemma rotate_right_leaf_st n s st pid node slot i s' st' :
  u_rotate_right_leaf n s st pid node slot i = Ok (Unw (s', st')) -> st' = st.
Proof.
  intros H. unfold u_rotate_right_leaf in H. obi H. obi H. obi H. obi H. obi H. apply debug_assert_is_inv in H.
  obi H. destruct x4 as [? ?].
  apply ubind_call_inv in H as [H|(aa & mm & H)]; [by injection H|].
  obi H. obi H. obi H. destruct x6 as [? ?].
  apply ubind_call_inv in H as [H|(aa' & mm' & H)]; [by injection H|]. obi H. obi H. by destruct x7.
Qed.
Lemma rotate_left_leaf_st n s st pid node slot i s' st' :
  u_rotate_left_leaf n s st pid node slot i = Ok (Unw (s', st')) -> st' = st.
Proof.
  intros H. unfold u_rotate_left_leaf in H. obi H. obi H. obi H. obi H. obi H. apply debug_assert_is_inv in H.
  obi H. destruct x4 as [? ?].
  apply ubind_call_inv in H as [H|(aa & mm & H)]; [by injection H|].
  obi H. obi H. destruct x5 as [? ?]. obi H. obi H. destruct x6 as [? ?].
  apply ubind_call_inv in H as [H|(aa' & mm' & H)]; [by injection H|]. obi H. obi H. by destruct x7.
Qed.

Lemma handle_leaf_mc n s st pid node ci ki r :
  u_handle_leaf n s st pid node ci ki = Ok r ->
  match r with
  | Unw (s', st') => mc st <= mc st'
  | Fin (r', s', st', node') _ => mc st <= mc st'
  end.
Proof.
  intros H. unfold u_handle_leaf in H. obi H. obi H. obi H. destruct x1;
    apply ubind_inv in H as [([s' st'] & H & ->)|([[kv s'] node'] & m & H & E')];
    try (injection E' as <-; unfold mc, st_merge_with_left_leaf, st_merge_with_right_leaf; simpl; lia).
  - by apply rotate_right_leaf_st in H as ->.
  - by apply rotate_left_leaf_st in H as ->.
  - apply merge_leaf_left_st in H as ->. unfold mc, st_merge_with_left_leaf. simpl. lia.
  - apply merge_leaf_right_st in H as ->. unfold mc, st_merge_with_right_leaf. simpl. lia.
Qed.

Lemma ascend_mc n stack s st r f : u_remove_ascend n stack s st r = Ok f -> mc st <= mc (st_of f).
Proof.
  revert n s st r. induction stack as [|[[pid ci] cid] stack IH]; intros n s st r H; simpl in H.
  - by injection H as <-.
  - destruct r as [kv|kv|idx].
    + apply ubind_call_inv in H as [->|(a & m & H)]; [done|]. obi H. obi H. by apply IH in H.
    + obi H. apply ubind_inv in H as [([s' st'] & H & ->)|([[[r1 s1] st1] node1] & m & H1 & H)].
      * apply handle_inner_mc in H. simpl. lia.
      * apply handle_inner_mc in H1. apply IH in H. lia.
    + obi H. apply ubind_inv in H as [([s' st'] & H & ->)|([[[r1 s1] st1] node1] & m & H1 & H)].
      * apply handle_leaf_mc in H. done.
      * apply handle_leaf_mc in H1. apply IH in H. lia.
Qed.

Lemma ascend_safe E n stack s st r f : live_ok E s -> (forall kv, r <> DrInnerUnderSize kv) ->
  u_remove_ascend n stack s st r = Ok f -> mc (st_of f) = mc st ->
  match f with
  | Unw (s', _) => keeps s s' /\ live_ok E s'
  | Fin (r', s', _) _ => keeps s s' /\ live_ok E s' /\
      ((exists kv, r' = DrDone kv) \/ (stack = [] /\ r' = r /\ s' = s))
  end.
Proof.
  revert n s st r. induction stack as [|[[pid ci] cid] stack IH]; intros n s st r Hl Hr H Hmc; simpl in H.
  - injection H as <-. split_and!; [apply keeps_refl|done|by right].
  - assert (forall n s1 st1 kv, keeps s s1 -> live_ok E s1 -> mc st1 = mc st ->
      u_remove_ascend n stack s1 st1 (DrDone kv) = Ok f ->
      match f with
      | Unw (s', _) => keeps s s' /\ live_ok E s'
      | Fin (r', s', _) _ => keeps s s' /\ live_ok E s' /\
          ((exists kv, r' = DrDone kv) \/ ((pid, ci, cid) :: stack = [] /\ r' = r /\ s' = s))
      end) as Go.
    { intros n0 s1 st1 kv K1 L1 M1 H0. apply IH in H0; [|done|done|lia].
      destruct f as [[[r' s'] ?] m|[s' ?]].
      - destruct H0 as (H1 & H2 & H3). split_and!; [by eapply keeps_trans|done|].
        left. destruct H3 as [H3|(_ & -> & _)]; [done|]. eauto.
      - destruct H0 as (H1 & H2). split; [by eapply keeps_trans|done]. }
    destruct r as [kv|kv|idx]; [|by destruct (Hr kv)|].
    + apply ubind_call_inv in H as [->|(a & m & H)]; [split; [apply keeps_refl|done]|].
      apply obind_Ok_inv in H as (nd & Hg & H). apply obind_Ok_inv in H as (nd' & Hs & H). apply ikeep_aug in Hs.
      refine (Go _ _ _ _ _ _ _ H); [|by eapply (live_leaves E s)|done].
      by eapply keeps_inner; [apply keeps_refl|..].
    + apply obind_Ok_inv in H as (nd & Hg & H).
      apply ubind_inv in H as [([s' st'] & H & ->)|([[[r1 s1] st1] node1] & m & H1 & H)].
      * apply (handle_leaf_safe E) in H as [_ H]; [|done..]. apply H. exact Hmc.
      * apply (handle_leaf_safe E) in H1 as [M1 H1]; [|done..]. pose proof (ascend_mc _ _ _ _ _ _ H) as M2.
        destruct (H1 ltac:(lia)) as (K1 & L1 & kv & ->).
        refine (Go _ _ _ _ K1 _ _ H); [by eapply (live_leaves E s1)|lia].
Qed.

Section Top.
Context {OM : OrdMode} {OI : OrdIf K}.
Context (rl ri : nat) (Hrl : 1 <= rl).

Lemma key_to_ref_stack T p stack lid off h t : InvAt rl ri False T h t ->
  key_to_ref T p = Ok (Some (stack, lid, off)) -> h = 0 \/ stack <> [].
Proof.
  intros HI E. unfold key_to_ref in E. rewrite (inv_root _ _ _ _ _ _ HI) in E.
  pose proof (inv_shape _ _ _ _ _ _ HI) as Hsh. destruct h as [|h]; [by left|]. right.
  destruct t as [|id ks ch]; [done|]. cbn [nid] in *.
  assert (forall fuel s node st st' lid off, st <> [] -> key_to_ref_loop fuel s node p st = Ok (Some (st', lid, off)) -> st' <> []) as Go.
  { assert (forall s id (st st' : visit_stack) lid off, st <> [] ->
      (let! n := get_leaf s id in let! r := leaf_locate_slot n p in
       match r with ROk idx => Ok (Some (st, id, idx)) | RErr _ => Ok None end) = Ok (Some (st', lid, off)) -> st' <> []) as Leaf.
    { clear E. intros s id0 st st' lid' off' Hn E. obi E. obi E. destruct x0; [|done]. by injection E as <-. }
    clear E. induction fuel as [|fuel IH]; intros s node st st' lid' off' Hn E; destruct node as [id0|id0]; cbn [key_to_ref_loop] in E;
      try done; [exact (Leaf _ _ _ _ _ _ Hn E)| |exact (Leaf _ _ _ _ _ _ Hn E)].
    obi E. obi E. destruct x0 as [o c]. obi E. refine (IH _ _ _ _ _ _ _ E).
    unfold stack_push in Hx1. destruct (decide _); [|done]. by injection Hx1 as <-. }
  unfold descend_fuel in E. cbn [key_to_ref_loop] in E. obi E. obi E. destruct x0 as [o c]. obi E. refine (Go _ _ _ _ _ _ _ _ E).
  unfold stack_push in Hx1. destruct (decide _); [|done]. by injection Hx1 as <-.
Qed.

Lemma u_remove_safe T h t n p T' : InvAt rl ri False T h t ->
  u_remove n T p = Ok (Unw T') -> mc (t_st T') = mc (t_st T) ->
  keeps (t_store T) (t_store T') /\ t_root T' = t_root T /\ live_ok (flat t) (t_store T').
Proof.
  intros HI H Hmc. destruct (inv_safe rl ri Hrl T h t HI) as [Hs Hl]. unfold u_remove in H.
  apply obind_Ok_inv in H as ([[[stack lid] off]|] & Hk & H); [|done].
  apply ubind_inv in H as [(T1 & H & E1)|([kv ?] & m & _ & E1)]; [|done]. injection E1 as <-.
  unfold u_remove_by_ref in H. apply obind_Ok_inv in H as (nd & Hnd & H).
  apply obind_Ok_inv in H as ([r nd'] & Hdel & H). apply obind_Ok_inv in H as (f & Hf & H).
  pose proof (live_get _ _ _ _ Hl Hnd) as Hgn.
  assert (good (flat t) nd' /\ (forall i, r = DelUnderSize i -> nd' = nd)) as [Hg' Hr'].
  { unfold leaf_try_delete_at in Hdel. destruct Hgn as (kvs & pv & nx & -> & Hsz & Hne & Hsub).
    destruct (leaf_able_to_lend _) eqn:Elend.
    - apply obind_Ok_inv in Hdel as ([kv l'] & Hd & E1). injection E1 as <- <-. split; [|done].
      apply delete_at_inv in Hd as [Hi ->]; [|done]. pose proof (length_delete kvs off ltac:(eauto)) as Hld.
      unfold leaf_able_to_lend, leaf_minimum_size in Elend. cbn [l_size mk_leaf] in Elend. apply bool_decide_eq_true in Elend.
      eexists _, _, _. split_and!; [done|lia| |by apply delete_sub]. intros Ez. rewrite Ez in Hld. simpl in Hld. lia.
    - injection Hdel as <- <-. split; [|done]. by exists kvs, pv, nx. }
  set (s1 := put_leaf (t_store T) lid nd') in *.
  assert (keeps (t_store T) s1) as K1 by apply keeps_leaf. assert (live_ok (flat t) s1) as L1 by (by apply live_put).
  assert (mc (st_of f) = mc (t_st T)) as Hmf.
  { destruct f as [[[r2 s2] st2] m|[s2 st2]]; [|by injection H as <-]. obi H. destruct x as [[? ?] ?].
    apply ubind_call_inv in H as [E1|(a & m' & H)]; [|by obi H]. injection E1 as ->. exact Hmc. }
  apply (ascend_safe (flat t)) in Hf; [|done|by destruct r|done].
  destruct f as [[[r2 s2] st2] m|[s2 st2]].
  - destruct Hf as (K2 & L2 & Hcase). obi H. destruct x as [[kv root] s3].
    apply ubind_call_inv in H as [E1|(a & m' & H)]; [|by obi H]. injection E1 as ->. cbn [t_store t_root].
    destruct Hcase as [(kv' & ->)|(-> & -> & ->)].
    + injection Hx as <- <- <-. split_and!; [by eapply keeps_trans|done|done].
    + destruct r as [kv'|i]; [injection Hx as <- <- <-; split_and!; [by eapply keeps_trans|done|done]|].
      apply obind_Ok_inv in Hx as (lid' & Hlid & Hx). apply obind_Ok_inv in Hx as (l' & Hl' & Hx).
      apply obind_Ok_inv in Hx as ([kv' l''] & Hd & Hx). injection Hx as <- <- <-.
      split_and!; [eapply keeps_trans; [exact K1|apply keeps_leaf]|done|].
      apply live_put; [done|]. pose proof (inv_shape _ _ _ _ _ _ HI) as Hsh.
      assert (h = 0) as -> by (by destruct (key_to_ref_stack T p [] lid off h t HI Hk)).
      destruct t as [id kvs|]; [|done]. rewrite (inv_root _ _ _ _ _ _ HI) in Hlid. injection Hlid as <-.
      assert (leaves s1 !! id = Some (Some (mk_leaf kvs None None))) as El.
      { pose proof (lrep_linked _ _ (inv_lrep _ _ _ _ _ _ HI)) as [E1 _]. simpl in E1. 
        unfold s1, put_leaf. rewrite (Hr' i eq_refl). cbn [leaves set_leaves].
        destruct (decide (lid = id)) as [->|Hn]; [|by rewrite list_lookup_insert_ne].
        rewrite list_lookup_insert by (by eapply lookup_lt_Some). unfold get_leaf in Hnd. rewrite E1 in Hnd. by injection Hnd as ->. }
      unfold get_leaf in Hl'. rewrite El in Hl'. injection Hl' as <-. simpl in Hsh.
      apply delete_at_inv in Hd as [Hi ->]; [|lia]. pose proof (length_delete kvs i ltac:(eauto)) as Hld.
      eexists _, _, _. split_and!; [done|lia|done|]. apply delete_sub. unfold flat. simpl. by rewrite app_nil_r.
  - injection H as <-. destruct Hf as [K2 L2]. split_and!; [by eapply keeps_trans|done|done].
Qed.

Lemma u_remove_get T h t n p T' : InvAt rl ri False T h t ->
  u_remove n T p = Ok (Unw T') -> mc (t_st T') = mc (t_st T) ->
  forall q c, exists o c', get (recached T' c) q = Ok (o, recached T' c') /\ get_any q (flat t) o.
Proof.
  intros HI H Hmc q c. destruct (u_remove_safe T h t n p T' HI H Hmc) as (K1 & Er & L1).
  destruct (inv_safe rl ri Hrl T h t HI) as [Hs _].
  apply (get_safe _ T' h).
  - rewrite Er. by eapply safe_keeps.
  - pose proof (fuel_inv rl ri False T h t HI) as Hf. unfold descend_fuel in *. destruct K1 as (_ & _ & ->). done.
  - done.
Qed.
End Top.
End Safe.
