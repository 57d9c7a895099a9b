(** Removal: fixing an underfull child, level by level. *)
From stdpp Require Import list sorting.
From Verif Require Import Base Slots BinSearch LeafNode InnerNode Store Tree Remove
  SlotLemmas NodeLemmas Spec Order Logical Descent InsertProof InvLemmas RemoveLeaf RemoveInner.

Section RemoveProof.
Context {K V A : Type} {KO : KeyOps K} {PF : Profile} {OM : OrdMode} {OI : OrdIf K} {AO : AugOps K V A}.
Notation tr := (tr K V).
Notation mark := (K * option V)%type.
Notation seg := (nat * list (K * V))%type.
Notation store := (store K V A).

(** How the removal stops at a node with a single child that needs a sibling,
    [j] levels above the leaves: over a leaf [unreachable!()] (tree_remove.rs:184-186),
    over an inner node the [debug_assert!] of [merge_inner_node]
    (tree_remove.rs:314); a release build reads the child after the last one. *)
Definition stuck {X} (j : nat) : outcome X := match j with 0 => Panic | S _ => if dev then Panic else UB end.
Lemma stuck_bind {X Y} j (f : X -> outcome Y) : obind (stuck j) f = stuck j.
Proof. destruct j; [done|]. unfold stuck. by destruct dev. Qed.

Lemma stuck_inner (s : store) stat i aus kv :
  handle_inner_under_size s stat (mk_inner [] [NInner i] aus) 0 kv = stuck 1.
Proof.
  unfold handle_inner_under_size. rewrite !(decide_False (P:=0<0)) by lia. rewrite obind_Ok. cbn [i_size mk_inner length].
  rewrite decide_False by lia. rewrite obind_Ok. unfold merge_inner_node, stuck. cbn [i_size mk_inner length].
  rewrite decide_False by lia. by destruct dev.
Qed.
Lemma stuck_leaf (s : store) stat i aus off : handle_leaf_under_size s stat (mk_inner [] [NLeaf i] aus) 0 off = stuck 0.
Proof. done. Qed.

Context (rl ri : nat) (SYNC : Prop).
Context (Hrl : rl <= 16) (Hri : ri <= 16).
Notation shape := (shape rl ri).
Notation nshape := (nshape rl ri).
Notation irep := (irep SYNC).

Lemma chs_pair (P : bool -> tr -> Prop) b cl c1 c2 cr :
  chs P b (cl ++ c1 :: c2 :: cr) <->
  Forall (P false) cl /\ P false c1 /\ P (cflag b cr) c2 /\ (cr <> [] -> chs P b cr).
Proof.
  rewrite chs_app. simpl cflag.
  assert (chs P b (c2 :: cr) <-> P (cflag b cr) c2 /\ (cr <> [] -> chs P b cr)) as E.
  { change (c2 :: cr) with ([] ++ c2 :: cr) at 1. rewrite chs_app. split; [tauto|]. intros H. split; [constructor|done]. }
  rewrite E. split.
  - intros (H1 & H2 & H3). split_and!; try done; by apply H3.
  - intros (H1 & H2 & H3 & H4). split_and!; try done.
Qed.

(** An inner node with a separator. *)
Definition wide (t : tr) : Prop := match t with TLeaf _ _ => True | TNode _ ks _ => ks <> [] end.

(** What a node looks like after one of its children was fixed. *)
Record fixed (is' : list (option (inner K A))) (h : nat) (b : bool) (kv : K * V) (ks : list K) (ch : list tr)
    (ks' : list K) (ch' : list tr) (aus' : list A) (r : delete_result K V) : Prop := {
  fx_len : length ch' = S (length ks');
  fx_aus : length aus' = length ch';
  fx_aug : SYNC -> aus' = map aug_of ch';
  fx_chs : chs (fun b' => shape b' h) b ch';
  fx_irep : Forall (irep is' h) ch';
  fx_r : (r = DrDone kv /\ length ks' = length ks) \/
         (r = del_res kv (length ks') /\ S (length ks') = length ks);
  fx_sorted : forall id X Y, sorted_if (X ++ trav (TNode id ks ch) ++ Y) ->
    sorted_if (X ++ trav (TNode id ks' ch') ++ Y);
  fx_wide : S (length ks') = length ks -> ks' = [] -> Forall wide ch';
}.

(** ** Leaves *)
Definition leaf_fix b (ks : list K) ch (pre post : list seg) (fl : list (K * V)) kv (s : store)
    (r : delete_result K V) (s' : store) (node' : inner K A) : Prop :=
  exists ks' ch' aus', node' = mk_inner ks' (map nid ch') aus' /\
    inners s' = inners s /\
    lrep (leaves s') (pre ++ concat (map leaf_seq ch') ++ post) /\
    fixed (inners s') 0 b kv ks ch ks' ch' aus' r /\ ids ch' = [] /\
    concat (map flat ch') = fl.

Lemma shape_leaf0 b (c : tr) : shape b 0 c -> exists id kvs, c = TLeaf id kvs /\ smin rl ri b 0 <= length kvs <= 64.
Proof. destruct c; simpl; [|done]. intros H. eexists _, _. split; [done|]. destruct b; done. Qed.

Lemma leaves_irep is (ch : list tr) (P : bool -> tr -> Prop) b : (forall b c, P b c -> shape b 0 c) -> chs P b ch ->
  Forall (irep is 0) ch /\ ids ch = [].
Proof.
  intros HP Hc.
  assert (Forall (fun c : tr => exists id kvs, c = TLeaf id kvs) ch) as F.
  { rewrite Forall_forall. intros c Hin. eapply chs_elem in Hc; [|done].
    destruct Hc as [Hc|Hc]; apply HP, shape_leaf0 in Hc as (id & kvs & -> & _); eauto. }
  clear - F. induction F as [|c ch (id & kvs & ->) F [IH1 IH2]]; [done|].
  split; [by constructor|]. by rewrite ids_cons, IH2.
Qed.

Lemma flat_leaf id (kvs : list (K * V)) : flat (TLeaf id kvs) = kvs.
Proof. unfold flat. simpl. apply app_nil_r. Qed.

Section LeafPair.
Context (s : store) (b : bool) (kl kr : list K) (sep : K) (cl cr : list tr) (lid rid : nat)
  (l r : list (K * V)) (pre post : list seg) (kv : K * V).
Context (L1 : length kl = length cl) (L2 : length kr = length cr).
Context (Hc1 : Forall (shape false 0) cl) (Hc2 : cr <> [] -> chs (fun b' => shape b' 0) b cr).
Let ks := kl ++ sep :: kr.
Let ch := cl ++ TLeaf lid l :: TLeaf rid r :: cr.

Lemma pair_rotate_fix (s' : store) aus' l' y r' : inners s' = inners s ->
  length aus' = length cl + S (S (length cr)) ->
  (SYNC -> aus' = map aug_of (cl ++ TLeaf lid l' :: TLeaf rid (y :: r') :: cr)) ->
  lrep (leaves s') ((pre ++ concat (map leaf_seq cl)) ++ (lid, l') :: (rid, y :: r') :: (concat (map leaf_seq cr) ++ post)) ->
  16 <= length l' <= 64 -> smin rl ri (cflag b cr) 0 <= length (y :: r') <= 64 ->
  l' ++ y :: r' `sublist_of` l ++ r ->
  leaf_fix b ks ch pre post (concat (map flat cl) ++ (l' ++ y :: r') ++ concat (map flat cr)) kv s (DrDone kv) s'
    (mk_inner (kl ++ y.1 :: kr) (map nid ch) aus').
Proof.
  intros Hi Ha Hau Hlr Hl Hr Hsub.
  assert (chs (fun b' => shape b' 0) b (cl ++ TLeaf lid l' :: TLeaf rid (y :: r') :: cr)) as Hchs.
  { apply chs_pair. split_and!; [done|simpl; lia| |done]. unfold smin in Hr. destruct (cflag b cr); done. }
  destruct (leaves_irep (inners s') _ _ _ (fun b c H => H) Hchs) as [Hir Hid].
  eexists (kl ++ y.1 :: kr), (cl ++ TLeaf lid l' :: TLeaf rid (y :: r') :: cr), aus'. split_and!.
  - unfold ch. by rewrite !map_app.
  - done.
  - rewrite map_app, concat_app. simpl. rewrite <- !app_assoc in *. simpl. done.
  - split.
    + rewrite !app_length. simpl. lia.
    + rewrite !app_length. simpl. lia.
    + done.
    + done.
    + done.
    + left. split; [done|]. unfold ks. rewrite !app_length. simpl. lia.
    + intros id X Y. unfold ks, ch. rewrite !trav_node2 by done.
      replace (X ++ (zl cl kl ++ trav (TLeaf lid l) ++ (sep, None) :: trav (TLeaf rid r) ++ zr kr cr) ++ Y)
        with ((X ++ zl cl kl) ++ (map emark l ++ (sep, None) :: map emark r) ++ zr kr cr ++ Y)
        by (rewrite <- !app_assoc; simpl; by rewrite <- !app_assoc).
      replace (X ++ (zl cl kl ++ trav (TLeaf lid l') ++ (y.1, None) :: trav (TLeaf rid (y :: r')) ++ zr kr cr) ++ Y)
        with ((X ++ zl cl kl) ++ (map emark l' ++ (y.1, None) :: map emark (y :: r')) ++ zr kr cr ++ Y)
        by (rewrite <- !app_assoc; simpl; by rewrite <- !app_assoc).
      apply sorted_pair_rotate; [|done]. intros ->. simpl in Hl. lia.
    + intros _ E. by destruct kl.
  - done.
  - rewrite map_app, concat_app. simpl. rewrite !flat_leaf. by rewrite <- !app_assoc.
Qed.

Lemma pair_merge_fix (s' : store) aus' m : inners s' = inners s ->
  length aus' = S (length (kl ++ kr)) ->
  (SYNC -> aus' = map aug_of (cl ++ TLeaf lid m :: cr)) ->
  lrep (leaves s') ((pre ++ concat (map leaf_seq cl)) ++ (lid, m) :: (concat (map leaf_seq cr) ++ post)) ->
  smin rl ri (cflag b cr) 0 <= length m <= 64 ->
  m `sublist_of` l ++ r ->
  leaf_fix b ks ch pre post (concat (map flat cl) ++ m ++ concat (map flat cr)) kv s (del_res kv (length (kl ++ kr))) s'
    (mk_inner (kl ++ kr) (map nid (cl ++ TLeaf lid m :: cr)) aus').
Proof.
  intros Hi Ha Hau Hlr Hm Hsub.
  assert (chs (fun b' => shape b' 0) b (cl ++ TLeaf lid m :: cr)) as Hchs.
  { apply chs_app. split_and!; [done| |done]. unfold smin in Hm. destruct (cflag b cr); done. }
  destruct (leaves_irep (inners s') _ _ _ (fun b c H => H) Hchs) as [Hir Hid].
  eexists (kl ++ kr), (cl ++ TLeaf lid m :: cr), aus'. split_and!.
  - done.
  - done.
  - rewrite map_app, concat_app. simpl. rewrite <- !app_assoc in *. simpl. done.
  - split.
    + rewrite !app_length. simpl. lia.
    + rewrite Ha, !app_length. simpl. lia.
    + done.
    + done.
    + done.
    + right. split; [done|]. unfold ks. rewrite !app_length. simpl. lia.
    + intros id X Y. unfold ks, ch. rewrite trav_node2 by done. rewrite trav_node by done.
      replace (X ++ (zl cl kl ++ trav (TLeaf lid l) ++ (sep, None) :: trav (TLeaf rid r) ++ zr kr cr) ++ Y)
        with ((X ++ zl cl kl) ++ (map emark l ++ (sep, None) :: map emark r) ++ zr kr cr ++ Y)
        by (rewrite <- !app_assoc; simpl; by rewrite <- !app_assoc).
      replace (X ++ (zl cl kl ++ trav (TLeaf lid m) ++ zr kr cr) ++ Y)
        with ((X ++ zl cl kl) ++ map emark m ++ zr kr cr ++ Y) by (rewrite <- !app_assoc; done).
      by apply sorted_pair_merge.
    + intros _ [-> ->]%app_eq_nil. destruct cl, cr; try done. by repeat constructor.
  - done.
  - rewrite map_app, concat_app. simpl. by rewrite !flat_leaf.
Qed.
End LeafPair.

Lemma sublist_delete' {T} i (l : list T) : delete i l `sublist_of` l.
Proof. apply sublist_delete. Qed.

Section HandleLeaf.
Context (s : store) (st : statistic) (b : bool) (kl kr : list K) (cl cr : list tr) (id : nat)
  (kvs : list (K * V)) (aus : list A) (di : nat) (kv : K * V) (pre post : list seg).
Context (L1 : length kl = length cl) (L2 : length kr = length cr).
Context (Hk64 : length (kl ++ kr) <= 64).
Context (La : length aus = S (length (kl ++ kr))).
Let ch := cl ++ TLeaf id kvs :: cr.
Context (Hau : SYNC -> aus = map aug_of ch).
Context (Hchs : chs (fun b' => shape b' 0) b ch).
Context (Hdi : kvs !! di = Some kv) (Hkvs : length kvs <= 16).
Context (Lr : lrep (leaves s) (pre ++ concat (map leaf_seq ch) ++ post)).
Let node := mk_inner (kl ++ kr) (map nid ch) aus.
Let fl := concat (map flat cl) ++ delete di kvs ++ concat (map flat cr).

(** The left neighbour. *)
Lemma handle_prev cl0 p : cl = cl0 ++ [p] ->
  exists lid l, p = TLeaf lid l /\ 16 <= length l <= 64 /\
  (exists pv nx, leaves s !! lid = Some (Some (mk_leaf l pv nx))) /\
  map nid ch !! (length cl - 1) = Some (NLeaf lid) /\
  (16 < length l -> exists kv' s' node', rotate_right_for_leaf_node s node (length cl - 1) di = Ok (kv', s', node') /\
     leaf_fix b (kl ++ kr) ch pre post fl kv s (DrDone kv') s' node') /\
  (length l <= 16 -> exists r s' node', merge_leaf_node_left s node (length cl - 1) di = Ok (r, s', node') /\
     leaf_fix b (kl ++ kr) ch pre post fl kv s r s' node').
Proof.
  intros Ecl.
  assert (exists kl0 sep, kl = kl0 ++ [sep]) as (kl0 & sep & Ekl).
  { destruct (exists_last (l:=kl)) as (kl0 & sep & ->); [|eauto]. intros ->. subst cl.
    rewrite app_length in L1. simpl in L1. lia. }
  pose proof Hchs as Hc. unfold ch in Hc. rewrite Ecl, <- app_assoc in Hc. cbn [app] in Hc.
  apply chs_pair in Hc as (C1 & C2 & C3 & C4).
  apply shape_leaf0 in C2 as (lid & l & -> & Hl). simpl in Hl.
  assert (length kl0 = length cl0) as L0 by (rewrite Ekl, Ecl, !app_length in L1; simpl in L1; lia).
  assert (length cl - 1 = length cl0) as Elen by (rewrite Ecl, app_length; simpl; lia).
  assert (kl ++ kr = kl0 ++ sep :: kr) as Ek by (rewrite Ekl, <- app_assoc; done).
  assert (ch = cl0 ++ TLeaf lid l :: TLeaf id kvs :: cr) as Ech by (unfold ch; rewrite Ecl, <- app_assoc; done).
  assert (lrep (leaves s) ((pre ++ concat (map leaf_seq cl0)) ++ (lid, l) :: (id, kvs) :: (concat (map leaf_seq cr) ++ post))) as Lr'.
  { pose proof Lr as X. rewrite Ech, map_app, concat_app in X. simpl in X. rewrite <- !app_assoc in *. simpl in *. done. }
  assert (length aus = length cl0 + S (S (length cr))) as La'.
  { rewrite La, Ek, app_length. simpl. lia. }
  assert (exists pv nx, leaves s !! lid = Some (Some (mk_leaf l pv nx))) as Hget.
  { destruct (lrep_lookup_pair _ _ _ _ _ _ _ Lr') as (E1 & _). eauto. }
  assert (concat (map flat cl) = concat (map flat cl0) ++ l) as Efl.
  { rewrite Ecl, map_app, concat_app. simpl. by rewrite flat_leaf, app_nil_r. }
  pose proof (lookup_lt_Some _ _ _ Hdi) as Hdlt.
  assert (length (delete di kvs) = length kvs - 1) as Hdel by (rewrite length_delete by eauto; done).
  assert (length (kl0 ++ sep :: kr) <= 64) as Hk64' by (rewrite <- Ek; done).
  pose proof Hau as Hau'. rewrite Ech in Hau'.
  exists lid, l. split_and!; [done|lia|lia|done| | |].
  - rewrite Ech, map_app, Elen. simpl. apply lookup_middle'. by rewrite map_length.
  - intros Hlend. destruct (exists_last (l:=l)) as (l0 & x & El).
    { intros ->. simpl in Hlend. lia. }
    rewrite Elen. unfold node. rewrite Ek, Ech.
    destruct (rotate_right_leaf_ok SYNC s kl0 kr sep cl0 cr lid id l kvs aus _ _ di kv L0 La' Lr'
      ltac:(lia) ltac:(lia) Hau' l0 x El Hlend Hdi) as (s' & aus' & E & Hi & Hlen & Hsy & Hlr).
    eexists kv, s', _. split; [exact E|].
    replace fl with (concat (map flat cl0) ++ (l0 ++ x :: delete di kvs) ++ concat (map flat cr)).
    2:{ unfold fl. rewrite Efl, El, <- !app_assoc. done. }
    rewrite El in Hlend, Hl. rewrite app_length in Hlend, Hl. simpl in Hlend, Hl.
    eapply pair_rotate_fix; [done|done|done|done|done|lia|done|done|lia| |].
    + destruct (shape_leaf0 _ _ C3) as (? & ? & [= -> ->] & ?). cbn [length]. rewrite Hdel. lia.
    + rewrite El, <- app_assoc. apply sublist_app; [done|]. simpl. constructor. apply sublist_delete.
  - intros Hnl. rewrite Elen. unfold node. rewrite Ek, Ech.
    destruct (merge_left_leaf_ok SYNC s kl0 kr sep cl0 cr lid id l kvs aus _ _ di kv L0 La' Lr'
      ltac:(lia) ltac:(lia) Hau' L2 Hk64' ltac:(lia) Hdi) as (s' & aus' & E & Hi & Hlen & Hsy & Hlr).
    eexists _, s', _. split; [exact E|].
    replace fl with (concat (map flat cl0) ++ (l ++ delete di kvs) ++ concat (map flat cr)).
    2:{ unfold fl. rewrite Efl, <- !app_assoc. done. }
    eapply pair_merge_fix; try done.
    + rewrite app_length, Hdel. assert (smin rl ri (cflag b cr) 0 <= 16) by (unfold smin; destruct (cflag b cr); lia). lia.
    + apply sublist_app; [done|]. apply sublist_delete.
Qed.

(** The right neighbour. *)
Lemma handle_next n cr0 : cr = n :: cr0 ->
  exists rid r, n = TLeaf rid r /\ length r <= 64 /\
  (exists pv nx, leaves s !! rid = Some (Some (mk_leaf r pv nx))) /\
  map nid ch !! (length cl + 1) = Some (NLeaf rid) /\
  (16 < length r -> exists kv' s' node', rotate_left_for_leaf_node s node (length cl) di = Ok (kv', s', node') /\
     leaf_fix b (kl ++ kr) ch pre post fl kv s (DrDone kv') s' node') /\
  (length r <= 16 -> exists r' s' node', merge_leaf_node_with_right s node (length cl) di = Ok (r', s', node') /\
     leaf_fix b (kl ++ kr) ch pre post fl kv s r' s' node').
Proof.
  intros Ecr.
  assert (exists sep kr0, kr = sep :: kr0) as (sep & kr0 & Ekr).
  { destruct kr as [|sep kr0]; [|eauto]. subst cr. done. }
  assert (length kr0 = length cr0) as L0 by (rewrite Ekr, Ecr in L2; simpl in L2; lia).
  pose proof Hchs as Hc. unfold ch in Hc. rewrite Ecr in Hc.
  apply chs_pair in Hc as (C1 & C2 & C3 & C4).
  apply shape_leaf0 in C3 as (rid & r & -> & Hr).
  apply shape_leaf0 in C2 as (? & ? & [= <- <-] & Hk16). simpl in Hk16.
  assert (kl ++ kr = kl ++ sep :: kr0) as Ek by (by rewrite Ekr).
  assert (ch = cl ++ TLeaf id kvs :: TLeaf rid r :: cr0) as Ech by (unfold ch; by rewrite Ecr).
  assert (lrep (leaves s) ((pre ++ concat (map leaf_seq cl)) ++ (id, kvs) :: (rid, r) :: (concat (map leaf_seq cr0) ++ post))) as Lr'.
  { pose proof Lr as X. rewrite Ech, map_app, concat_app in X. simpl in X. rewrite <- !app_assoc in *. simpl in *. done. }
  assert (length aus = length cl + S (S (length cr0))) as La'.
  { rewrite La, Ek, app_length. simpl. lia. }
  assert (exists pv nx, leaves s !! rid = Some (Some (mk_leaf r pv nx))) as Hget.
  { destruct (lrep_lookup_pair _ _ _ _ _ _ _ Lr') as (_ & E1 & _). eauto. }
  assert (concat (map flat cr) = r ++ concat (map flat cr0)) as Efl.
  { rewrite Ecr. simpl. by rewrite flat_leaf. }
  pose proof (lookup_lt_Some _ _ _ Hdi) as Hdlt.
  assert (length (delete di kvs) = length kvs - 1) as Hdel by (rewrite length_delete by eauto; done).
  assert (length (kl ++ sep :: kr0) <= 64) as Hk64' by (rewrite <- Ek; done).
  pose proof Hau as Hau'. rewrite Ech in Hau'.
  assert (smin rl ri (cflag b cr0) 0 <= 16) as Hsm by (unfold smin; destruct (cflag b cr0); lia).
  exists rid, r. split_and!; [done|lia|done| | |].
  - rewrite Ech, map_app. simpl.
    destruct (pair_lookup (map nid cl) (map nid cr0) (NLeaf id) (NLeaf rid)) as [_ X].
    by rewrite map_length, <- Nat.add_1_r in X.
  - intros Hlend. destruct r as [|x [|y r0]] eqn:Er; [simpl in Hlend; lia|simpl in Hlend; lia|].
    rewrite <- Er in *. unfold node. rewrite Ek, Ech.
    destruct (rotate_left_leaf_ok SYNC s kl kr0 sep cl cr0 id rid kvs r aus _ _ di kv L1 La' Lr'
      ltac:(lia) ltac:(lia) Hau' x y r0 Er Hlend Hdi) as (s' & aus' & E & Hi & Hlen & Hsy & Hlr).
    eexists kv, s', _. split; [exact E|].
    replace fl with (concat (map flat cl) ++ ((delete di kvs ++ [x]) ++ y :: r0) ++ concat (map flat cr0)).
    2:{ unfold fl. rewrite Efl, Er, <- !app_assoc. done. }
    rewrite Er in Hlend, Hr. cbn [length] in Hlend, Hr.
    eapply pair_rotate_fix; [done|done|done|done|done|lia|done|done| | |].
    + rewrite app_length, Hdel. simpl. lia.
    + cbn [length]. lia.
    + rewrite Er, <- app_assoc. apply sublist_app; [apply sublist_delete|]. done.
  - intros Hnl. unfold node. rewrite Ek, Ech.
    destruct (merge_right_leaf_ok SYNC s kl kr0 sep cl cr0 id rid kvs r aus _ _ di kv L1 La' Lr'
      ltac:(lia) ltac:(lia) Hau' L0 Hk64' ltac:(lia) Hdi) as (s' & aus' & E & Hi & Hlen & Hsy & Hlr).
    eexists _, s', _. split; [exact E|].
    replace fl with (concat (map flat cl) ++ (delete di kvs ++ r) ++ concat (map flat cr0)).
    2:{ unfold fl. rewrite Efl, <- !app_assoc. done. }
    eapply pair_merge_fix; try done.
    + rewrite app_length, Hdel. lia.
    + apply sublist_app; [apply sublist_delete|done].
Qed.

Lemma handle_leaf_ok : 1 <= length (kl ++ kr) ->
  exists r s' st' node', handle_leaf_under_size s st node (length cl) di = Ok (r, s', st', node') /\
    leaf_fix b (kl ++ kr) ch pre post fl kv s r s' node'.
Proof.
  intros Hk1. unfold handle_leaf_under_size.
  assert (i_size node = length (kl ++ kr)) as Esz by done. rewrite Esz, app_length.
  rewrite app_length in Hk1.
  destruct (decide (0 < length cl)) as [Hcl|Hcl].
  - destruct (exists_last (l:=cl)) as (cl0 & p & Ecl); [by intros ->; simpl in Hcl; lia|].
    destruct (handle_prev cl0 p Ecl) as (lid & l & -> & Hl & (pv & nx & Egl) & Hch & Hrr & Hml).
    unfold node at 1. rewrite (inner_child_id_mk _ _ _ _ _ Hch), obind_Ok. cbn [leaf_id_unchecked]. rewrite obind_Ok.
    unfold get_leaf at 1. rewrite Egl, !obind_Ok.
    destruct (decide (length cl < length kl + length kr)) as [Hcr|Hcr].
    + assert (exists n cr0, cr = n :: cr0) as (n & cr0 & Ecr) by (destruct cr; [simpl in *; lia|eauto]).
      destruct (handle_next n cr0 Ecr) as (rid & r & -> & Hr & (pv' & nx' & Egr) & Hch' & Hrl' & Hmr).
      unfold node at 1. rewrite (inner_child_id_mk _ _ _ _ _ Hch'), obind_Ok. cbn [leaf_id_unchecked]. rewrite obind_Ok.
      unfold get_leaf at 1. rewrite Egr, !obind_Ok.
      unfold choose_fix_action. rewrite !leaf_lend_mk. cbn [l_size mk_leaf].
      destruct (bool_decide (16 < length l)) eqn:D1; [apply bool_decide_eq_true in D1|apply bool_decide_eq_false in D1].
      * destruct (bool_decide (16 < length r)) eqn:D2; [apply bool_decide_eq_true in D2; destruct (decide _)|]; rewrite obind_Ok.
        -- destruct (Hrr D1) as (kv' & s' & node' & E & HF). rewrite E, obind_Ok. eauto 10.
        -- destruct (Hrl' D2) as (kv' & s' & node' & E & HF). rewrite E, obind_Ok. eauto 10.
        -- destruct (Hrr D1) as (kv' & s' & node' & E & HF). rewrite E, obind_Ok. eauto 10.
      * destruct (bool_decide (16 < length r)) eqn:D2; [apply bool_decide_eq_true in D2|]; rewrite obind_Ok.
        -- destruct (Hrl' D2) as (kv' & s' & node' & E & HF). rewrite E, obind_Ok. eauto 10.
        -- destruct (Hml ltac:(lia)) as (kv' & s' & node' & E & HF). rewrite E, obind_Ok. eauto 10.
    + rewrite obind_Ok. unfold choose_fix_action. rewrite !leaf_lend_mk.
      destruct (bool_decide (16 < length l)) eqn:D1; [apply bool_decide_eq_true in D1|apply bool_decide_eq_false in D1]; rewrite obind_Ok.
      * destruct (Hrr D1) as (kv' & s' & node' & E & HF). rewrite E, obind_Ok. eauto 10.
      * destruct (Hml ltac:(lia)) as (kv' & s' & node' & E & HF). rewrite E, obind_Ok. eauto 10.
  - rewrite obind_Ok. rewrite decide_True by lia.
    assert (exists n cr0, cr = n :: cr0) as (n & cr0 & Ecr) by (destruct cr; [simpl in *; lia|eauto]).
    destruct (handle_next n cr0 Ecr) as (rid & r & -> & Hr & (pv' & nx' & Egr) & Hch' & Hrl' & Hmr).
    unfold node at 1. rewrite (inner_child_id_mk _ _ _ _ _ Hch'), obind_Ok. cbn [leaf_id_unchecked]. rewrite obind_Ok.
    unfold get_leaf at 1. rewrite Egr, !obind_Ok.
    unfold choose_fix_action. rewrite !leaf_lend_mk.
    destruct (bool_decide (16 < length r)) eqn:D2; [apply bool_decide_eq_true in D2|apply bool_decide_eq_false in D2]; rewrite obind_Ok.
    + destruct (Hrl' D2) as (kv' & s' & node' & E & HF). rewrite E, obind_Ok. eauto 10.
    + destruct (Hmr ltac:(lia)) as (kv' & s' & node' & E & HF). rewrite E, obind_Ok. eauto 10.
Qed.
End HandleLeaf.

(** ** Inner nodes *)
Definition inner_fix (h : nat) b (ks : list K) ch kv (s : store)
    (r : delete_result K V) (s' : store) (node' : inner K A) : Prop :=
  exists ks' ch' aus' dead, node' = mk_inner ks' (map nid ch') aus' /\
    leaves s' = leaves s /\ length (inners s') = length (inners s) /\
    fixed (inners s') h b kv ks ch ks' ch' aus' r /\
    concat (map leaf_seq ch') = concat (map leaf_seq ch) /\
    ids ch ≡ₚ ids ch' ++ dead /\
    (forall i, i ∈ dead -> inners s' !! i = Some None) /\
    (forall i, i ∉ ids ch -> inners s' !! i = inners s !! i).

Lemma chs_false (P : bool -> tr -> Prop) ch : chs P false ch -> Forall (P false) ch.
Proof. intros H. rewrite Forall_forall. intros c Hc. by destruct (chs_elem _ _ _ _ H Hc). Qed.

Section InnerPair.
Context (s : store) (h : nat) (b : bool) (kl kr : list K) (sep : K) (cl cr : list tr) (c1 c2 : tr) (kv : K * V).
Context (L1 : length kl = length cl) (L2 : length kr = length cr).
Context (Hc1 : Forall (shape false h) cl) (Hc2 : cr <> [] -> chs (fun b' => shape b' h) b cr).
Let ks := kl ++ sep :: kr.
Let ch := cl ++ c1 :: c2 :: cr.
Context (Nd : NoDup (ids ch)) (Hir : Forall (irep (inners s) h) ch).

Lemma pair_frame (s' : store) : (forall i, i ∉ inner_ids c1 ++ inner_ids c2 -> inners s' !! i = inners s !! i) ->
  Forall (irep (inners s') h) cl /\ Forall (irep (inners s') h) cr.
Proof.
  intros Hf. unfold ch in *. rewrite ids_app, !ids_cons in Nd.
  apply Forall_app in Hir as [F1 F2]. inversion F2 as [|? ? _ F3]; subst. inversion F3 as [|? ? _ F4]; subst.
  apply NoDup_app in Nd as (N1 & N2 & N3). rewrite app_assoc in N3. apply NoDup_app in N3 as (N3 & N4 & N5).
  split; eapply Forall_irep_frame; try done; intros i Hi _; apply Hf; intros Hj.
  - apply (N2 i Hi). rewrite app_assoc, elem_of_app. by left.
  - by apply (N4 i Hj).
Qed.

Lemma inner_rotate_fix (s' : store) aus' k c1' c2' : nid c1' = nid c1 -> nid c2' = nid c2 ->
  leaves s' = leaves s -> length (inners s') = length (inners s) ->
  length aus' = length cl + S (S (length cr)) ->
  (SYNC -> aus' = map aug_of (cl ++ c1' :: c2' :: cr)) ->
  irep (inners s') h c1' -> irep (inners s') h c2' -> shape false h c1' -> shape (cflag b cr) h c2' ->
  trav c1' ++ (k, None) :: trav c2' = trav c1 ++ (sep, None) :: trav c2 ->
  leaf_seq c1' ++ leaf_seq c2' = leaf_seq c1 ++ leaf_seq c2 ->
  inner_ids c1 ++ inner_ids c2 ≡ₚ inner_ids c1' ++ inner_ids c2' ->
  (forall i, i ∉ inner_ids c1 ++ inner_ids c2 -> inners s' !! i = inners s !! i) ->
  inner_fix h b ks ch kv s (DrDone kv) s' (mk_inner (kl ++ k :: kr) (map nid ch) aus').
Proof.
  intros E1 E2 Hlv Hln Ha Hau I1 I2 S1 S2 Et El Eid Hf.
  destruct (pair_frame s' Hf) as [Fl Fr].
  exists (kl ++ k :: kr), (cl ++ c1' :: c2' :: cr), aus', []. split_and!.
  - unfold ch. rewrite !map_app. simpl. by rewrite E1, E2.
  - done.
  - done.
  - split.
    + rewrite !app_length. simpl. lia.
    + rewrite !app_length. simpl. lia.
    + done.
    + by apply chs_pair.
    + apply Forall_app. split; [done|]. by constructor; [|constructor].
    + left. split; [done|]. unfold ks. rewrite !app_length. simpl. lia.
    + intros id X Y. unfold ks, ch. rewrite !trav_node2 by done.
      replace (trav c1' ++ (k, None) :: trav c2' ++ zr kr cr) with ((trav c1' ++ (k, None) :: trav c2') ++ zr kr cr)
        by (by rewrite <- app_assoc).
      rewrite Et, <- (app_assoc (trav c1)). done.
    + intros _ E. by destruct kl.
  - unfold ch. rewrite !map_app, !concat_app. simpl. f_equal.
    rewrite !app_assoc. by rewrite El.
  - unfold ch. rewrite app_nil_r, !ids_app, !ids_cons. rewrite !(app_assoc (inner_ids _)).
    by rewrite Eid.
  - intros i Hi. by apply elem_of_nil in Hi.
  - intros i Hi. apply Hf. intros Hj. apply Hi. unfold ch.
    rewrite ids_app, !ids_cons, !elem_of_app. rewrite elem_of_app in Hj. tauto.
Qed.

Lemma inner_merge_fix (s' : store) aus' c' rid : 
  leaves s' = leaves s -> length (inners s') = length (inners s) ->
  length aus' = S (length (kl ++ kr)) ->
  (SYNC -> aus' = map aug_of (cl ++ c' :: cr)) ->
  irep (inners s') h c' -> shape (cflag b cr) h c' ->
  trav c' = trav c1 ++ (sep, None) :: trav c2 ->
  leaf_seq c' = leaf_seq c1 ++ leaf_seq c2 ->
  inner_ids c1 ++ inner_ids c2 ≡ₚ inner_ids c' ++ [rid] ->
  inners s' !! rid = Some None ->
  (forall i, i ∉ inner_ids c1 ++ inner_ids c2 -> inners s' !! i = inners s !! i) -> wide c' ->
  inner_fix h b ks ch kv s (del_res kv (length (kl ++ kr))) s' (mk_inner (kl ++ kr) (map nid (cl ++ c' :: cr)) aus').
Proof.
  intros Hlv Hln Ha Hau I1 S1 Et El Eid Hrid Hf Hw.
  destruct (pair_frame s' Hf) as [Fl Fr].
  exists (kl ++ kr), (cl ++ c' :: cr), aus', [rid]. split_and!.
  - done.
  - done.
  - done.
  - split.
    + rewrite !app_length. simpl. lia.
    + rewrite Ha, !app_length. simpl. lia.
    + done.
    + by apply chs_app.
    + apply Forall_app. split; [done|]. by constructor.
    + right. split; [done|]. unfold ks. rewrite !app_length. simpl. lia.
    + intros id X Y. unfold ks, ch. rewrite trav_node2 by done. rewrite trav_node by done.
      rewrite Et, <- (app_assoc (trav c1)). done.
    + intros _ [-> ->]%app_eq_nil. destruct cl, cr; try done. by repeat constructor.
  - unfold ch. rewrite !map_app, !concat_app. simpl. f_equal.
    rewrite !app_assoc. by rewrite El.
  - unfold ch. rewrite !ids_app, !ids_cons. rewrite !(app_assoc (inner_ids c1)).
    rewrite Eid. rewrite <- !app_assoc. by rewrite (Permutation_app_comm [rid] (ids cr)).
  - intros i Hi. apply elem_of_list_singleton in Hi as ->. done.
  - intros i Hi. apply Hf. intros Hj. apply Hi. unfold ch.
    rewrite ids_app, !ids_cons, !elem_of_app. rewrite elem_of_app in Hj. tauto.
Qed.
End InnerPair.

Lemma shape_inner b' h' (t : tr) : shape b' (S h') t -> exists id ks ch, t = TNode id ks ch /\
  smin rl ri b' (S h') <= length ks <= 64 /\ length ch = S (length ks) /\ chs (fun b' => shape b' h') b' ch.
Proof. destruct t; cbn [Logical.shape]; [done|]. intros H. eexists _, _, _. split; [done|]. destruct b'; done. Qed.

Lemma smin_le b' h' : smin rl ri b' h' <= 16.
Proof. unfold smin. destruct b', h'; lia. Qed.

Section HandleInner.
Context (s : store) (st : statistic) (h : nat) (b : bool) (kl kr : list K) (cl cr : list tr)
  (cid : nat) (ck : list K) (cch : list tr) (aus : list A) (kv : K * V).
Context (L1 : length kl = length cl) (L2 : length kr = length cr).
Context (Hk64 : length (kl ++ kr) <= 64).
Context (La : length aus = S (length (kl ++ kr))).
Let c := TNode cid ck cch.
Let ch := cl ++ c :: cr.
Context (Hau : SYNC -> exists a, aus = map aug_of cl ++ a :: map aug_of cr).
Context (Hcl : Forall (shape false (S h)) cl).
Context (Hc : nshape (smin rl ri (cflag b cr) (S h) - 1) (cflag b cr) (S h) c) (Hck : length ck < 16).
Context (Hcr : cr <> [] -> chs (fun b' => shape b' (S h)) b cr).
Context (Nd : NoDup (ids ch)) (Hir : Forall (irep (inners s) (S h)) ch).
Let node := mk_inner (kl ++ kr) (map nid ch) aus.

Lemma inner_prev cl0 p : cl = cl0 ++ [p] ->
  exists lid k1 ch1, p = TNode lid k1 ch1 /\
  (16 < length k1 -> exists s' node', try_rotate_right_for_inner_node s node (length cl - 1) = Ok (true, s', node') /\
     inner_fix (S h) b (kl ++ kr) ch kv s (DrDone kv) s' node') /\
  (~ 16 < length k1 -> try_rotate_right_for_inner_node s node (length cl - 1) = Ok (false, s, node)) /\
  (~ 16 < length k1 -> aug_needs_drop (K:=K) (V:=V) (A:=A) = false ->
     exists r s' node', merge_inner_node s node (length cl - 1) = Ok (r, s', node') /\
     inner_fix (S h) b (kl ++ kr) ch kv s (merge_result_to_delete r kv) s' node').
Proof.
  intros Ecl.
  assert (exists kl0 sep, kl = kl0 ++ [sep]) as (kl0 & sep & Ekl).
  { destruct (exists_last (l:=kl)) as (kl0 & sep & ->); [|eauto]. intros ->. subst cl.
    rewrite app_length in L1. simpl in L1. lia. }
  pose proof Hcl as Hc0. rewrite Ecl in Hc0. apply Forall_app in Hc0 as [C1 C2].
  inversion C2 as [|? ? C2' _]; subst x l. apply shape_inner in C2' as (lid & k1 & ch1 & -> & Hk1 & Hch1 & Hchs1).
  change (smin rl ri false (S h)) with 16 in Hk1.
  assert (length kl0 = length cl0) as L0 by (rewrite Ekl, Ecl, !app_length in L1; simpl in L1; lia).
  assert (length cl - 1 = length cl0) as Elen by (rewrite Ecl, app_length; simpl; lia).
  assert (kl ++ kr = kl0 ++ sep :: kr) as Ek by (rewrite Ekl, <- app_assoc; done).
  assert (ch = cl0 ++ TNode lid k1 ch1 :: c :: cr) as Ech by (unfold ch; rewrite Ecl, <- app_assoc; done).
  assert (length aus = length cl0 + S (S (length cr))) as La'.
  { rewrite La, Ek, app_length. simpl. lia. }
  assert (length (kl0 ++ sep :: kr) <= 64) as Hk64' by (rewrite <- Ek; done).
  assert (sync_pair SYNC cl0 cr aus) as Hau'.
  { intros HS. destruct (Hau HS) as (a & ->). rewrite Ecl, map_app, <- app_assoc. by eexists _, _. }
  pose proof Nd as Nd'. pose proof Hir as Hir'. rewrite Ech in Nd', Hir'.
  pose proof Hir' as Hir2. apply Forall_app in Hir2 as [_ Hir2]. inversion Hir2 as [|? ? I1 Hir3]; subst x l.
  inversion Hir3 as [|? ? I2 _]; subst x l.
  assert (NoDup (inner_ids (TNode lid k1 ch1) ++ inner_ids c)) as Np.
  { rewrite ids_app, !ids_cons in Nd'. apply NoDup_app in Nd' as (_ & _ & N). rewrite app_assoc in N. by apply NoDup_app in N as (N & _). }
  destruct Hc as ((Hm & Hck64) & Hcch & Hchsc).
  assert (inner_ids (TNode lid k1 ch1) ++ inner_ids (TNode cid ck cch) = lid :: ids ch1 ++ cid :: ids cch) as Eids by done.
  exists lid, k1, ch1. split; [done|]. rewrite Elen. unfold node. rewrite Ek, Ech. split_and!.
  - intros Hlend. destruct (exists_last (l:=k1)) as (k1' & k & Ek1).
    { intros ->. simpl in Hlend. lia. }
    destruct (exists_last (l:=ch1)) as (ch1' & cx & Ec1).
    { intros ->. simpl in Hch1. lia. }
    destruct (rotate_right_inner_ok SYNC s h kl0 kr sep cl0 cr lid cid k1 ck ch1 cch aus L0 La' Hch1 Hcch ltac:(lia) Hck64
      I1 I2 Np Hau' k1' k ch1' cx Ek1 Ec1 Hlend ltac:(lia)) as (s' & aus' & E & Hlv & Hln & Hla & Hsy & J1 & J2 & Hf).
    eexists s', _. split; [exact E|].
    rewrite Ek1, app_length in Hlend, Hch1, Hk1. rewrite Ec1, app_length in Hch1. simpl in Hlend, Hch1, Hk1.
    pose proof (chs_false _ _ Hchs1) as Hchs1'. rewrite Ec1 in Hchs1'. apply Forall_app in Hchs1' as [G1 G2].
    inversion G2 as [|? ? G3 _]; subst x l.
    eapply inner_rotate_fix; [exact L0|exact L2|exact C1|exact Hcr|exact Nd'|exact Hir'|..|exact J1|exact J2| | | | | |].
    + done.
    + done.
    + done.
    + done.
    + lia.
    + done.
    + split_and!; [lia|lia|lia|]. apply chs_Forall; [|done]. intros ->. simpl in Hch1. lia.
    + change (shape (cflag b cr) (S h) (TNode cid (sep :: ck) (cx :: cch))).
      apply shape_nshape. split_and!; [cbn [length]; lia|cbn [length]; lia|cbn [length]; lia|].
      apply (chs_app2 _ _ [cx] cch); [intros ->; simpl in Hcch; lia|]. split; [by constructor|done].
    + rewrite Ek1, Ec1.
      rewrite (trav_node_app lid lid 0 ch1' [cx] k1' k []) by lia.
      change (TNode cid (sep :: ck) (cx :: cch)) with (TNode cid ([] ++ sep :: ck) ([cx] ++ cch)).
      rewrite (trav_node_app cid 0 cid [cx] cch [] sep ck) by done.
      rewrite <- app_assoc. done.
    + rewrite Ec1. simpl. rewrite map_app, concat_app. simpl. by rewrite app_nil_r, <- app_assoc.
    + unfold c; rewrite Eids, Ec1. rewrite !inner_ids_node, ids_app, !ids_cons. simpl. rewrite app_nil_r.
      rewrite <- !app_assoc. simpl. apply Permutation_cons; [done|]. apply Permutation_app_head. by rewrite Permutation_middle.
    + unfold c; rewrite Eids. intros i Hi. apply Hf; intros ->; apply Hi; rewrite ?elem_of_cons, elem_of_app, elem_of_cons; tauto.
  - intros Hno. apply (rotate_right_inner_no SYNC s h); done.
  - intros Hno Hdrop.
    destruct (merge_inner_ok SYNC s h kl0 kr sep cl0 cr lid cid k1 ck ch1 cch aus L0 La' Hch1 Hcch ltac:(lia) Hck64
      I1 I2 Np Hau' L2 Hk64' Hdrop ltac:(lia)) as (s' & aus' & E & Hlv & Hln & Hla & Hsy & J1 & J2 & Hf).
    eexists _, s', _. split; [exact E|].
    replace (merge_result_to_delete (if decide (MIN_N <= length (kl0 ++ kr)) then MergeDone else MergeUnderSize) kv)
      with (del_res kv (length (kl0 ++ kr))) by (unfold del_res; destruct (decide _); done).
    eapply inner_merge_fix; [exact L0|exact L2|exact C1|exact Hcr|exact Nd'|exact Hir'|..|exact J1| | | | |exact J2| |].
    + done.
    + done.
    + done.
    + done.
    + change (shape (cflag b cr) (S h) (TNode lid (k1 ++ sep :: ck) (ch1 ++ cch))). apply shape_nshape.
      pose proof (smin_le (cflag b cr) (S h)).
      split_and!; [rewrite app_length; cbn [length]; lia|rewrite app_length; cbn [length]; lia|rewrite !app_length; cbn [length]; lia|].
      apply chs_app2; [intros ->; simpl in Hcch; lia|]. split; [by apply (chs_false (fun b' => shape b' h))|done].
    + rewrite (trav_node_app lid lid cid ch1 cch k1 sep ck) by lia. done.
    + simpl. by rewrite map_app, concat_app.
    + unfold c; rewrite Eids, inner_ids_node, ids_app. simpl. apply Permutation_cons; [done|].
      rewrite <- app_assoc. apply Permutation_app_head. by rewrite Permutation_cons_append.
    + unfold c; rewrite Eids. intros i Hi. apply Hf; intros ->; apply Hi; rewrite ?elem_of_cons, elem_of_app, elem_of_cons; tauto.
    + simpl. by destruct k1.
Qed.

Lemma inner_next n cr0 : cr = n :: cr0 ->
  exists rid k2 ch2, n = TNode rid k2 ch2 /\
  (16 < length k2 -> exists s' node', try_rotate_left_for_inner_node s node (length cl) = Ok (true, s', node') /\
     inner_fix (S h) b (kl ++ kr) ch kv s (DrDone kv) s' node') /\
  (~ 16 < length k2 -> try_rotate_left_for_inner_node s node (length cl) = Ok (false, s, node)) /\
  (~ 16 < length k2 -> aug_needs_drop (K:=K) (V:=V) (A:=A) = false ->
     exists r s' node', merge_inner_node s node (length cl) = Ok (r, s', node') /\
     inner_fix (S h) b (kl ++ kr) ch kv s (merge_result_to_delete r kv) s' node').
Proof.
  intros Ecr.
  assert (exists sep kr0, kr = sep :: kr0) as (sep & kr0 & Ekr).
  { destruct kr as [|sep kr0]; [|eauto]. subst cr. done. }
  assert (length kr0 = length cr0) as L0 by (rewrite Ekr, Ecr in L2; simpl in L2; lia).
  pose proof (Hcr ltac:(by rewrite Ecr)) as C3. rewrite Ecr in C3.
  change (n :: cr0) with ([] ++ n :: cr0) in C3. apply chs_app in C3 as (_ & C3 & C4).
  apply shape_inner in C3 as (rid & k2 & ch2 & -> & Hk2 & Hch2 & Hchs2).
  assert (kl ++ kr = kl ++ sep :: kr0) as Ek by (by rewrite Ekr).
  assert (ch = cl ++ c :: TNode rid k2 ch2 :: cr0) as Ech by (unfold ch; by rewrite Ecr).
  assert (length aus = length cl + S (S (length cr0))) as La'.
  { rewrite La, Ek, app_length. simpl. lia. }
  assert (length (kl ++ sep :: kr0) <= 64) as Hk64' by (rewrite <- Ek; done).
  assert (sync_pair SYNC cl cr0 aus) as Hau'.
  { intros HS. destruct (Hau HS) as (a & ->). rewrite Ecr. by eexists _, _. }
  pose proof Nd as Nd'. pose proof Hir as Hir'. rewrite Ech in Nd', Hir'.
  pose proof Hir' as Hir2. apply Forall_app in Hir2 as [_ Hir2]. inversion Hir2 as [|? ? I1 Hir3]; subst x l.
  inversion Hir3 as [|? ? I2 _]; subst x l.
  assert (NoDup (inner_ids c ++ inner_ids (TNode rid k2 ch2))) as Np.
  { rewrite ids_app, !ids_cons in Nd'.
    apply NoDup_app in Nd' as (_ & _ & N). rewrite app_assoc in N. by apply NoDup_app in N as (N & _). }
  pose proof Hc as Hc'. rewrite Ecr in Hc'. destruct Hc' as ((Hm & Hck64) & Hcch & Hchsc).
  change (16 - 1 <= length ck) in Hm. cbn [cflag] in Hchsc.
  assert (inner_ids (TNode cid ck cch) ++ inner_ids (TNode rid k2 ch2) = cid :: ids cch ++ rid :: ids ch2) as Eids by done.
  pose proof (smin_le (cflag b cr0) (S h)) as Hsm.
  exists rid, k2, ch2. split; [done|]. unfold node. rewrite Ek, Ech. split_and!.
  - intros Hlend. destruct k2 as [|k k2'] eqn:Ek2; [simpl in Hlend; lia|]. rewrite <- Ek2 in *.
    destruct ch2 as [|cx ch2'] eqn:Ec2; [simpl in Hch2; lia|]. rewrite <- Ec2 in *.
    destruct (rotate_left_inner_ok SYNC s h kl kr0 sep cl cr0 cid rid ck k2 cch ch2 aus L1 La' Hcch Hch2 Hck64 ltac:(lia)
      I1 I2 Np Hau' k k2' cx ch2' Ek2 Ec2 Hlend ltac:(lia)) as (s' & aus' & E & Hlv & Hln & Hla & Hsy & J1 & J2 & Hf).
    eexists s', _. split; [exact E|].
    rewrite Ek2 in Hlend, Hch2, Hk2. rewrite Ec2 in Hch2. cbn [length] in Hlend, Hch2, Hk2.
    assert (ch2' <> []) as Hn by (intros ->; simpl in Hch2; lia).
    rewrite Ec2 in Hchs2. apply (chs_app2 _ _ [cx] ch2') in Hchs2 as [G1 G2]; [|done].
    inversion G1 as [|? ? G3 _]; subst x l.
    eapply inner_rotate_fix; [exact L1|exact L0|exact Hcl|exact C4|exact Nd'|exact Hir'|..|exact J1|exact J2| | | | | |].
    + done.
    + done.
    + done.
    + done.
    + lia.
    + done.
    + split_and!; [rewrite app_length; cbn [length]; lia|rewrite app_length; cbn [length]; lia|rewrite !app_length; cbn [length]; lia|].
      apply chs_app2; [done|]. split; [by apply (chs_false (fun b' => shape b' h))|done].
    + apply shape_nshape. split_and!; [lia|lia|lia|done].
    + rewrite Ek2, Ec2. change (TNode rid (k :: k2') (cx :: ch2')) with (TNode rid ([] ++ k :: k2') ([cx] ++ ch2')).
      rewrite (trav_node_app rid 0 rid [cx] ch2' [] k k2') by done. unfold c.
      rewrite (trav_node_app cid cid 0 cch [cx] ck sep []) by lia.
      rewrite <- app_assoc. done.
    + rewrite Ec2. simpl. rewrite map_app, concat_app. simpl. by rewrite app_nil_r, <- app_assoc.
    + unfold c; rewrite Eids, Ec2. rewrite !inner_ids_node, ids_app, !ids_cons. simpl. rewrite app_nil_r.
      rewrite <- !app_assoc. apply Permutation_cons; [done|]. apply Permutation_app_head. by rewrite Permutation_middle.
    + unfold c; rewrite Eids. intros i Hi. apply Hf; intros ->; apply Hi; rewrite ?elem_of_cons, elem_of_app, elem_of_cons; tauto.
  - intros Hno. apply (rotate_left_inner_no SYNC s h); done.
  - intros Hno Hdrop.
    destruct (merge_inner_ok SYNC s h kl kr0 sep cl cr0 cid rid ck k2 cch ch2 aus L1 La' Hcch Hch2 Hck64 ltac:(lia)
      I1 I2 Np Hau' L0 Hk64' Hdrop ltac:(lia)) as (s' & aus' & E & Hlv & Hln & Hla & Hsy & J1 & J2 & Hf).
    eexists _, s', _. split; [exact E|].
    replace (merge_result_to_delete (if decide (MIN_N <= length (kl ++ kr0)) then MergeDone else MergeUnderSize) kv)
      with (del_res kv (length (kl ++ kr0))) by (unfold del_res; destruct (decide _); done).
    eapply inner_merge_fix; [exact L1|exact L0|exact Hcl|exact C4|exact Nd'|exact Hir'|..|exact J1| | | | |exact J2| |].
    + done.
    + done.
    + done.
    + done.
    + apply shape_nshape.
      split_and!; [rewrite app_length; cbn [length]; lia|rewrite app_length; cbn [length]; lia|rewrite !app_length; cbn [length]; lia|].
      apply chs_app2; [intros ->; simpl in Hch2; lia|]. split; [by apply (chs_false (fun b' => shape b' h))|done].
    + rewrite (trav_node_app cid cid rid cch ch2 ck sep k2) by lia. done.
    + simpl. by rewrite map_app, concat_app.
    + unfold c; rewrite Eids, inner_ids_node, ids_app. simpl. apply Permutation_cons; [done|].
      rewrite <- app_assoc. apply Permutation_app_head. by rewrite Permutation_cons_append.
    + unfold c; rewrite Eids. intros i Hi. apply Hf; intros ->; apply Hi; rewrite ?elem_of_cons, elem_of_app, elem_of_cons; tauto.
    + simpl. by destruct ck.
Qed.

Lemma handle_inner_ok : 1 <= length (kl ++ kr) -> aug_needs_drop (K:=K) (V:=V) (A:=A) = false ->
  exists r s' st' node', handle_inner_under_size s st node (length cl) kv = Ok (r, s', st', node') /\
    inner_fix (S h) b (kl ++ kr) ch kv s r s' node'.
Proof.
  intros Hk1 Hdrop. unfold handle_inner_under_size. rewrite app_length in Hk1.
  assert (i_size node = length kl + length kr) as Esz by (unfold node; cbn [i_size mk_inner]; by rewrite app_length).
  assert (forall r s' (st' : statistic) node', inner_fix (S h) b (kl ++ kr) ch kv s (merge_result_to_delete r kv) s' node' ->
    exists r0 s0 st0 node0, match r with
      | MergeDone => Ok (DrDone kv, s', st', node')
      | MergeUnderSize => Ok (DrInnerUnderSize kv, s', st', node')
      end = Ok (r0, s0, st0, node0) /\ inner_fix (S h) b (kl ++ kr) ch kv s r0 s0 node0) as Hm.
  { intros r s' st' node' HF. destruct r; eauto 10. }
  destruct (decide (0 < length cl)) as [Hcl0|Hcl0].
  - destruct (exists_last (l:=cl)) as (cl0 & p & Ecl); [by intros ->; simpl in Hcl0; lia|].
    destruct (inner_prev cl0 p Ecl) as (lid & k1 & ch1 & -> & Hrr & Hrn & Hml).
    destruct (decide (16 < length k1)) as [D1|D1].
    { destruct (Hrr D1) as (s' & node' & E & HF). rewrite E, obind_Ok. eauto 10. }
    rewrite (Hrn D1), obind_Ok. destruct (Hml D1 Hdrop) as (r' & s' & node' & Em & HF).
    rewrite Esz. destruct (decide (length cl < length kl + length kr)) as [Hcr0|Hcr0].
    + assert (exists n cr0, cr = n :: cr0) as (n & cr0 & Ecr) by (destruct cr; [simpl in *; lia|eauto]).
      destruct (inner_next n cr0 Ecr) as (rid & k2 & ch2 & -> & Hrl' & Hln & _).
      destruct (decide (16 < length k2)) as [D2|D2].
      { destruct (Hrl' D2) as (s2 & node2 & E & HF2). rewrite E, obind_Ok. eauto 10. }
      rewrite (Hln D2), obind_Ok. rewrite Em, obind_Ok. by apply Hm.
    + rewrite obind_Ok. rewrite Em, obind_Ok. by apply Hm.
  - rewrite obind_Ok, Esz, decide_True by lia.
    assert (exists n cr0, cr = n :: cr0) as (n & cr0 & Ecr) by (destruct cr; [simpl in *; lia|eauto]).
    destruct (inner_next n cr0 Ecr) as (rid & k2 & ch2 & -> & Hrl' & Hln & Hmr).
    destruct (decide (16 < length k2)) as [D2|D2].
    { destruct (Hrl' D2) as (s2 & node2 & E & HF2). rewrite E, obind_Ok. eauto 10. }
    rewrite (Hln D2), obind_Ok. destruct (Hmr D2 Hdrop) as (r' & s' & node' & Em & HF).
    rewrite Em, obind_Ok. by apply Hm.
Qed.
End HandleInner.

(** ** The ascent *)
Definition rem_post (m : nat) (b : bool) (h : nat) (t : tr) (off : nat) (kv : K * V) (nk : nat) (fl : list (K * V))
    (pre post : list seg) (s s' : store) (r : delete_result K V) (t' : tr) : Prop :=
  length (inners s') = length (inners s) /\
  (forall i, i ∉ inner_ids t -> inners s' !! i = inners s !! i) /\
  nid t' = nid t /\ irep (inners s') h t' /\
  lrep (leaves s') (pre ++ leaf_seq t' ++ post) /\
  (exists dead, inner_ids t ≡ₚ inner_ids t' ++ dead /\ forall i, i ∈ dead -> inners s' !! i = Some None) /\
  match r with
  | DrLeafUnderSize i => h = 0 /\ i = off /\ t' = t /\ s' = s /\ nk <= 16
  | DrDone kv' => kv' = kv /\ nshape m b h t' /\ flat t' = fl /\
      (forall X Y, sorted_if (X ++ trav t ++ Y) -> sorted_if (X ++ trav t' ++ Y))
  | DrInnerUnderSize kv' => kv' = kv /\ (exists id ks ch, t' = TNode id ks ch /\ length ks < 16 /\ (ks = [] -> Forall wide ch)) /\
      nshape (m - 1) b h t' /\ flat t' = fl /\
      (forall X Y, sorted_if (X ++ trav t ++ Y) -> sorted_if (X ++ trav t' ++ Y))
  end.

(** The state after [leaf_try_delete_at]. *)
Definition leaf_start (id : nat) (kvs : list (K * V)) (off : nat) (kv : K * V) (prv nxt : option nat) (s s0 : store)
    (r0 : delete_result K V) : Prop :=
  if decide (16 < length kvs)
  then r0 = DrDone kv /\ s0 = put_leaf s id (mk_leaf (delete off kvs) prv nxt)
  else r0 = DrLeafUnderSize off /\ s0 = s.

Lemma remove_finish m b h nid' ks ch ch0 ks' ch' aus' (s s'' : store) r kv off nk fl pre post dead :
  nshape m b (S h) (TNode nid' ks ch) -> m <= 16 -> NoDup (inner_ids (TNode nid' ks ch)) ->
  nid' < length (inners s'') -> length (inners s'') = length (inners s) ->
  ids ch ≡ₚ ids ch' ++ dead -> (forall i, i ∈ dead -> inners s'' !! i = Some None) ->
  (forall i, i ∉ nid' :: ids ch -> inners s'' !! i = inners s !! i) ->
  lrep (leaves s'') (pre ++ concat (map leaf_seq ch') ++ post) ->
  fixed (inners s'') h b kv ks ch0 ks' ch' aus' r ->
  (forall X Y, sorted_if (X ++ trav (TNode nid' ks ch) ++ Y) -> sorted_if (X ++ trav (TNode nid' ks ch0) ++ Y)) ->
  concat (map flat ch') = fl ->
  rem_post m b (S h) (TNode nid' ks ch) off kv nk fl pre post s
    (put_inner s'' nid' (mk_inner ks' (map nid ch') aus')) r (TNode nid' ks' ch').
Proof.
  intros (Hks & Hlen & _) Hm Hnd Hlt Hln Hdead Hdn Hfr Hlr [X1 X2 X3 X4 X5 X6 X7 X8] Hso Hfl.
  rewrite inner_ids_node in Hnd. apply NoDup_cons in Hnd as [Nn Nd].
  assert (forall i, i ∈ ids ch' \/ i ∈ dead -> i <> nid') as Hne.
  { intros i Hi ->. apply Nn. rewrite Hdead, elem_of_app. tauto. }
  split; [|split; [|split; [|split; [|split; [|split]]]]].
  - cbn [inners put_inner set_inners]. by rewrite insert_length.
  - intros i Hi. rewrite inner_ids_node in Hi. cbn [inners put_inner set_inners].
    rewrite list_lookup_insert_ne; [by apply Hfr|]. intros ->. apply Hi. by left.
  - done.
  - cbn [inners put_inner set_inners]. apply irep_node; try done.
    intros Hi. by apply (Hne nid'); [left|].
  - done.
  - exists dead. rewrite !inner_ids_node. split; [simpl; by rewrite Hdead|].
    intros i Hi. cbn [inners put_inner set_inners]. rewrite list_lookup_insert_ne; [by apply Hdn|].
    intros <-. by apply (Hne nid'); [right|].
  - assert (flat (TNode nid' ks' ch') = fl) as Hflat by (by rewrite flat_node).
    destruct X6 as [[-> E]|[-> E]]; [|unfold del_res; destruct (decide (MIN_N <= length ks')) as [D|D]].
    + split_and!; [done|split_and!; [lia|lia|done|done]|done|]. intros X Y H. by apply X7, Hso.
    + unfold MIN_N in D. split_and!; [done|split_and!; [lia|lia|done|done]|done|]. intros X Y H. by apply X7, Hso.
    + unfold MIN_N in D. split_and!; [done| |split_and!; [lia|lia|done|done]|done|].
      * eexists _, _, _. split; [done|]. split; [lia|]. by apply X8.
      * intros X Y H. by apply X7, Hso.
Qed.

Lemma remove_ascend_any t id kvs mA mB s1 s2 st : reach t id kvs mA mB s1 s2 st ->
  forall h m b (s s0 : store) stat pre post off kv r0,
  irep (inners s) h t -> nshape m b h t -> m <= 16 -> NoDup (inner_ids t) ->
  kvs !! off = Some kv -> lrep (leaves s) (pre ++ leaf_seq t ++ post) ->
  (aug_needs_drop (K:=K) (V:=V) (A:=A) = false \/ h <= 1) ->
  leaf_start id kvs off kv (last_id None (pre ++ s1)) (hd_id (s2 ++ post) None) s s0 r0 ->
  ((ri = 0 \/ m = 0 /\ h <> 0) /\ exists j, j < h /\ forall st0, remove_ascend (st ++ st0) s0 stat r0 = stuck j) \/
  exists s' stat' r' t', (forall st0, remove_ascend (st ++ st0) s0 stat r0 = remove_ascend st0 s' stat' r') /\
    rem_post m b h t off kv (length kvs) (elems mA ++ delete off kvs ++ elems mB) pre post s s' r' t'.
Proof.
  induction 1 as [id kvs|nid' kl kr cl c cr id kvs mA mB s1 s2 st L1 L2 Hreach IH];
    intros h m b s s0 stat pre post off kv r0 Hir Hsh Hm Hnd Hoff Hlr Hdrop Hstart.
  - destruct h as [|h]; [|done]. rewrite app_nil_r in Hstart. simpl in Hstart.
    unfold leaf_start in Hstart. destruct (decide (16 < length kvs)) as [D|D]; destruct Hstart as [-> ->].
    + right. eexists _, stat, _, (TLeaf id (delete off kvs)). split; [done|].
      pose proof (lookup_lt_Some _ _ _ Hoff).
      assert (length (delete off kvs) = length kvs - 1) as Hd by (rewrite length_delete by eauto; done).
      split; [done|]. split_and!; try done.
      * cbn [leaves put_leaf set_leaves leaf_seq app]. apply (lrep_update _ _ _ _ (delete off kvs)) in Hlr. exact Hlr.
      * exists []. split; [done|]. intros i Hi. by apply elem_of_nil in Hi.
      * cbn [Logical.nshape] in *. lia.
      * intros X Y. simpl. apply sorted_if_sublist. apply sublist_app; [done|]. apply sublist_app; [|done].
        pose proof (sublist_delete kvs off) as Hsub. clear - Hsub. induction Hsub; simpl; by constructor.
    + right. eexists s, stat, _, (TLeaf id kvs). split; [done|].
      split; [done|]. split_and!; try done; [|lia].
      exists []. split; [done|]. intros i Hi. by apply elem_of_nil in Hi.
  - destruct h as [|h]; [done|].
    destruct (nodup_node _ _ _ _ _ Hnd) as (N1 & N2 & N3 & N4 & N5 & N6).
    destruct Hir as [(aus & Ep & Hlaus & Haug) Hch].
    pose proof Hsh as (Hks & Hlen & Hchs).
    apply chs_app in Hchs as (C1 & C2 & C3). apply shape_nshape in C2.
    apply Forall_app in Hch as [F1 F2]. inversion F2 as [|? ? F3 F4]; subst x l.
    assert (lrep (leaves s) ((pre ++ concat (map leaf_seq cl)) ++ leaf_seq c ++ (concat (map leaf_seq cr) ++ post))) as Hlr'.
    { simpl in Hlr. rewrite map_app, concat_app in Hlr. simpl in Hlr. rewrite <- !app_assoc in *. done. }
    specialize (IH h (smin rl ri (cflag b cr) h) (cflag b cr) s s0 stat (pre ++ concat (map leaf_seq cl))
      (concat (map leaf_seq cr) ++ post) off kv r0 F3 C2 (smin_le _ _)).
    destruct IH as [(Hz & j & Hj & Hst)|(s' & stat' & r' & c' & Hasc & Hpost)].
    { done. } { done. } { done. } { destruct Hdrop as [?|?]; [by left|right; lia]. }
    { rewrite <- !app_assoc in *. done. }
    { left. split; [|exists j; split; [lia|intros st0; by rewrite <- app_assoc]].
      left. destruct Hz as [?|[Hz Hh]]; [done|]. unfold smin in Hz. destruct (cflag b cr), h; done || lia. }
    destruct Hpost as (Hln & Hfr & En & Hirc & Hlrc & (dead & Hdead & Hdn) & Hpost).
    assert (inners s' !! nid' = Some (Some (mk_inner (kl ++ kr) (map nid (cl ++ c :: cr)) aus))) as Ep' by (by rewrite Hfr).
    assert (map nid (cl ++ c :: cr) = map nid (cl ++ c' :: cr)) as Enid by (rewrite !map_app; simpl; by rewrite En).
    assert (Forall (irep (inners s') h) cl) as F1' by (eapply Forall_irep_frame; [done|]; intros i Hi _; apply Hfr; by apply N5).
    assert (Forall (irep (inners s') h) cr) as F4' by (eapply Forall_irep_frame; [done|]; intros i Hi _; apply Hfr; by apply N6).
    assert (nid' < length (inners s')) as Hlt by (by eapply lookup_lt_Some).
    assert (elems (zl cl kl ++ mA) ++ delete off kvs ++ elems (mB ++ zr kr cr) =
      concat (map flat cl) ++ (elems mA ++ delete off kvs ++ elems mB) ++ concat (map flat cr)) as Efl.
    { rewrite !elems_app, elems_zl, elems_zr by done. by rewrite <- !app_assoc. }
    rewrite Efl.
    set (fl := elems mA ++ delete off kvs ++ elems mB) in *.
    assert (length (kl ++ kr) = 0 -> m = 0 /\ cl = [] /\ cr = [] /\ kl = [] /\ kr = []) as Hk0.
    { intros E. rewrite app_length in E, Hks. destruct kl, kr, cl, cr; try (simpl in *; lia). split_and!; try done. simpl in *. lia. }
    assert (forall st0, remove_ascend ((st ++ [(nid', length cl, nid c)]) ++ st0) s0 stat r0 =
      remove_ascend ((nid', length cl, nid c) :: st0) s' stat' r') as Hasc'.
    { intros st0. by rewrite <- app_assoc, Hasc. }
    assert (forall i, i ∈ inner_ids c' \/ i ∈ dead -> i ∈ inner_ids c) as Hsub.
    { intros i Hi. rewrite Hdead, elem_of_app. tauto. }
    assert (forall X Y, (forall X Y, sorted_if (X ++ trav c ++ Y) -> sorted_if (X ++ trav c' ++ Y)) ->
      sorted_if (X ++ trav (TNode nid' (kl ++ kr) (cl ++ c :: cr)) ++ Y) ->
      sorted_if (X ++ trav (TNode nid' (kl ++ kr) (cl ++ c' :: cr)) ++ Y)) as Hsort.
    { intros X Y Hc. rewrite !trav_node by done.
      replace (X ++ (zl cl kl ++ trav c ++ zr kr cr) ++ Y) with ((X ++ zl cl kl) ++ trav c ++ zr kr cr ++ Y)
        by (by rewrite <- !app_assoc).
      replace (X ++ (zl cl kl ++ trav c' ++ zr kr cr) ++ Y) with ((X ++ zl cl kl) ++ trav c' ++ zr kr cr ++ Y)
        by (by rewrite <- !app_assoc). apply Hc. }
    assert (ids (cl ++ c :: cr) ≡ₚ ids (cl ++ c' :: cr) ++ dead) as Hids.
    { rewrite !ids_app, !ids_cons, Hdead. rewrite <- !app_assoc. by rewrite (Permutation_app_comm dead). }
    assert (NoDup (ids (cl ++ c' :: cr) ++ dead)) as Nd0.
    { rewrite inner_ids_node in Hnd. apply NoDup_cons in Hnd as [_ Hnd]. by rewrite Hids in Hnd. }
    destruct r' as [kv'|kv'|di].
    + (* done below: refresh the augmentation *)
      destruct Hpost as (-> & Hshc & Hflc & Hsoc).
      destruct (new_aug_ok rl ri SYNC s' h c' _ _ Hirc Hshc) as (a & Ea & Ha).
      { eapply lrep_lvok; [exact Hlrc|]. by eapply nshape_segs. }
      right. eexists _, stat', _, _. split.
      { intros st0. rewrite Hasc'. cbn [remove_ascend]. rewrite <- En, Ea, obind_Ok.
        unfold get_inner. rewrite Ep', obind_Ok. rewrite Enid.
        rewrite inner_set_augmentation_mk by (rewrite Hlaus, app_length; simpl; lia). rewrite obind_Ok.
        reflexivity. }
      eapply (remove_finish _ _ _ _ _ _ (cl ++ c' :: cr)); try done.
      * intros i Hi. apply Hfr. intros Hj. apply Hi. right. rewrite ids_app, ids_cons, !elem_of_app. tauto.
      * rewrite map_app, concat_app. simpl. rewrite <- !app_assoc in *. done.
      * split.
        -- rewrite <- Hlen, !app_length. done.
        -- rewrite insert_length, Hlaus, !app_length. done.
        -- by eapply map_aug_insert.
        -- apply chs_app. split_and!; [done| |done]. by apply shape_nshape.
        -- apply Forall_app. split; [done|]. by constructor.
        -- by left.
        -- done.
        -- lia.
      * intros X Y. by apply Hsort.
      * rewrite map_app, concat_app. simpl. by rewrite Hflc.
    + (* an underfull inner child *)
      destruct Hpost as (-> & (cid & ck & cch & -> & Hck & _) & Hshc & Hflc & Hsoc).
      destruct h as [|h]; [done|].
      destruct (decide (length (kl ++ kr) = 0)) as [E0|E0].
      { destruct (Hk0 E0) as (-> & -> & -> & -> & ->). left. split; [right; done|]. exists (S h). split; [lia|].
        intros st0. rewrite Hasc'. cbn [remove_ascend length app]. unfold get_inner. rewrite Ep', obind_Ok.
        cbn [map app length]. rewrite <- En. cbn [nid]. rewrite stuck_inner. by rewrite stuck_bind. }
      right. assert (1 <= length (kl ++ kr)) as Hk1 by lia.
      assert (aug_needs_drop (K:=K) (V:=V) (A:=A) = false) as Hnd0 by (destruct Hdrop; [done|lia]).
      destruct (handle_inner_ok s' stat' h b kl kr cl cr cid ck cch aus kv L1 L2 ltac:(lia)
        ltac:(lia)) as (r & s'' & st'' & node' & E & ks' & ch' & aus' & dead' & -> & Glv & Gln & Gfx & Gsq & Gids & Gdn & Gfr); try done.
      { intros HS. rewrite (Haug HS), map_app. by eexists. }
      { by apply NoDup_app in Nd0 as [Nd0 _]. }
      { apply Forall_app. split; [done|]. by constructor. }
      eexists _, _, _, _. split.
      { intros st0. rewrite Hasc'. cbn [remove_ascend].
        unfold get_inner. rewrite Ep', obind_Ok. rewrite Enid, E, obind_Ok. reflexivity. }
      eapply (remove_finish _ _ _ _ _ _ (cl ++ TNode cid ck cch :: cr) _ _ _ _ _ _ _ _ _ _ _ _ (dead' ++ dead)); try done.
      * by rewrite Gln.
      * by rewrite Gln.
      * rewrite Hids, Gids. by rewrite <- app_assoc.
      * intros i [Hi|Hi]%elem_of_app; [by apply Gdn|]. rewrite Gfr; [by apply Hdn|].
        intros Hj. apply NoDup_app in Nd0 as (_ & Nd0 & _). by apply (Nd0 i).
      * intros i Hi. rewrite elem_of_cons, Hids, elem_of_app in Hi. rewrite Gfr by tauto. apply Hfr.
        intros Hj. apply Hi. right. rewrite <- elem_of_app, <- Hids, ids_app, ids_cons, !elem_of_app. tauto.
      * rewrite Glv, Gsq, map_app, concat_app. simpl. simpl in Hlrc. rewrite <- !app_assoc in *. done.
      * intros X Y. by apply Hsort.
      * rewrite concat_map_flat, Gsq, <- concat_map_flat, map_app, concat_app. simpl. by rewrite Hflc.
    + (* an underfull leaf *)
      destruct Hpost as (-> & -> & -> & -> & Hk16).
      destruct c as [cid ckvs|]; [|done].
      destruct (decide (length (kl ++ kr) = 0)) as [E0|E0].
      { destruct (Hk0 E0) as (-> & -> & -> & -> & ->). left. split; [right; done|]. exists 0. split; [lia|].
        intros st0. rewrite Hasc'. cbn [remove_ascend length app]. unfold get_inner. rewrite Ep', obind_Ok. done. }
      right. assert (1 <= length (kl ++ kr)) as Hk1 by lia.
      assert (cid = id /\ ckvs = kvs /\ mA = [] /\ mB = []) as (-> & -> & -> & ->) by (inversion Hreach; done).
      destruct (handle_leaf_ok s stat' b kl kr cl cr id kvs aus off kv pre post L1 L2 ltac:(lia) ltac:(lia))
        as (r & s'' & st'' & node' & E & ks' & ch' & aus' & -> & Gin & Glr & Gfx & Gids & Gfl); try done.
      { apply chs_app. split_and!; [done| |done]. by apply shape_nshape. }
      eexists _, _, _, _. split.
      { intros st0. rewrite Hasc'. cbn [remove_ascend].
        unfold get_inner. rewrite Ep', obind_Ok. rewrite E, obind_Ok. reflexivity. }
      eapply (remove_finish _ _ _ _ _ _ (cl ++ TLeaf id kvs :: cr) _ _ _ _ _ _ _ _ _ _ _ _ []); try done.
      * by rewrite Gin.
      * by rewrite Gin.
      * rewrite Gids. apply Permutation_nil_r.
        destruct (leaves_irep (inners s) (cl ++ TLeaf id kvs :: cr) (fun b' => shape b' 0) b) as [_ ->]; [done| |done].
        apply chs_app. split_and!; [done| |done]. by apply shape_nshape.
      * intros i Hi. by apply elem_of_nil in Hi.
      * intros i Hi. by rewrite Gin.
      * rewrite Gfl. unfold fl. simpl. by rewrite app_nil_r.
Qed.

Lemma remove_ascend_ok t id kvs mA mB s1 s2 st : 1 <= ri -> reach t id kvs mA mB s1 s2 st ->
  forall h m b (s s0 : store) stat pre post off kv r0,
  irep (inners s) h t -> nshape m b h t -> m <= 16 -> (h <> 0 -> 1 <= m) -> NoDup (inner_ids t) ->
  kvs !! off = Some kv -> lrep (leaves s) (pre ++ leaf_seq t ++ post) ->
  (aug_needs_drop (K:=K) (V:=V) (A:=A) = false \/ h <= 1) ->
  leaf_start id kvs off kv (last_id None (pre ++ s1)) (hd_id (s2 ++ post) None) s s0 r0 ->
  exists s' stat' r' t', (forall st0, remove_ascend (st ++ st0) s0 stat r0 = remove_ascend st0 s' stat' r') /\
    rem_post m b h t off kv (length kvs) (elems mA ++ delete off kvs ++ elems mB) pre post s s' r' t'.
Proof.
  intros H1 R h m b s s0 stat pre post off kv r0 Hir Hsh Hm Hm1 Hnd Hoff Hlr Hdrop Hs.
  destruct (remove_ascend_any t id kvs mA mB s1 s2 st R h m b s s0 stat pre post off kv r0) as [([?|[? ?]] & _)|H]; try done; [lia|].
  specialize (Hm1 ltac:(done)). lia.
Qed.

End RemoveProof.
