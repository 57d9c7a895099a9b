(** [get], [get_mut], the leaf cache, [first] and [last]. *)
From stdpp Require Import list sorting.
From Verif Require Import Base Slots BinSearch LeafNode InnerNode Store Tree Remove
  SlotLemmas NodeLemmas Spec AugSpec AnySpec Order Logical Descent InsertProof InvLemmas InsertTop
  RemoveLeaf RemoveInner RemoveProof RemoveTop.

Ltac ss := repeat rewrite ?elem_of_app, ?elem_of_cons, ?elem_of_nil in *; naive_solver.

Section Lookup.
Context {K V A : Type} {KO : KeyOps K} {PF : Profile} {OM : OrdMode} {OI : OrdIf K} {AO : AugOps K V A}.
Notation tr := (tr K V).
Notation tree := (tree K V A).
Notation store := (store K V A).
Notation mark := (K * option V)%type.
Notation seg := (nat * list (K * V))%type.

Lemma spec_update_none p f (l : list (K * V)) : Forall (fun x => p x.1 <> Eq) l -> spec_update p f l = l.
Proof.
  induction 1 as [|[k v] l H Hl IH]; simpl; [done|].
  simpl in H. destruct (p k); [done| |]; by f_equal.
Qed.

Lemma spec_update_mid p f (a b c : list (K * V)) :
  Forall (fun x => p x.1 <> Eq) a -> Forall (fun x => p x.1 <> Eq) c ->
  spec_update p f (a ++ b ++ c) = a ++ spec_update p f b ++ c.
Proof.
  intros Ha Hc. induction Ha as [|[k v] a H Ha IH]; simpl.
  - induction b as [|[k v] b IHb]; simpl.
    + by apply spec_update_none.
    + rewrite IHb. by destruct (p k).
  - simpl in H. rewrite IH. by destruct (p k).
Qed.

Lemma spec_update_length p f (l : list (K * V)) : length (spec_update p f l) = length l.
Proof. induction l as [|[k v] l IH]; simpl; [done|]. destruct (p k); simpl; by rewrite ?IH. Qed.

Lemma spec_update_keys p f (l : list (K * V)) : keysof (spec_update p f l) = keysof l.
Proof. induction l as [|[k v] l IH]; simpl; [done|]. destruct (p k); simpl; by rewrite ?IH. Qed.

Section Inv.
Context (rl ri : nat) (SYNC : Prop) (Hrl1 : 1 <= rl).
Notation InvAt := (InvAt (A:=A) rl ri SYNC).

(** ** Leaves are not empty unless the tree is *)
Lemma shape_nonempty b h (t : tr) : shape rl ri b h t -> Forall (fun s => s.2 <> []) (leaf_seq t).
Proof.
  revert b t. induction h as [|h IH]; intros b [id kvs|id ks ch]; simpl; try done.
  - intros H. constructor; [|constructor]. simpl. destruct kvs; [|done]. destruct b; simpl in H; lia.
  - intros (_ & _ & Hc). apply Forall_concat, Forall_map. apply Forall_forall. intros c Hin.
    destruct (chs_elem _ _ _ _ Hc Hin); by eapply IH.
Qed.

Lemma nshape_nonempty m b h (t : tr) : nshape rl ri m b (S h) t -> Forall (fun s => s.2 <> []) (leaf_seq t).
Proof.
  destruct t as [id kvs|id ks ch]; simpl; try done.
  intros (_ & _ & Hc). apply Forall_concat, Forall_map. apply Forall_forall. intros c Hin.
  destruct (chs_elem _ _ _ _ Hc Hin); by eapply shape_nonempty.
Qed.

Lemma inv_segs T h t : InvAt T h t ->
  (exists id, leaf_seq t = [(id, [])]) \/ Forall (fun s => s.2 <> []) (leaf_seq t).
Proof.
  intros HI. pose proof (inv_shape _ _ _ _ _ _ HI) as Hs. destruct h as [|h].
  - destruct t as [id kvs|]; [|done]. simpl. destruct kvs; [left; by eexists|right].
    constructor; [done|constructor].
  - right. by eapply nshape_nonempty.
Qed.

Lemma inv_seq_nonnil T h t : InvAt T h t -> leaf_seq t <> [].
Proof.
  intros HI. pose proof (inv_shape _ _ _ _ _ _ HI) as Hs. revert Hs. generalize (rmin h), true.
  clear HI. revert t. induction h as [|h IH]; intros [id kvs|id ks ch] m b; simpl; try done.
  intros (_ & Hl & Hc). destruct ch as [|c ch]; [done|]. simpl.
  apply (chs_app _ _ [] c ch) in Hc as (_ & Hc & _). apply shape_nshape, IH in Hc.
  destruct (leaf_seq c); done.
Qed.

Lemma inv_seg_size T h t : InvAt T h t -> Forall (fun s => length s.2 <= 64) (leaf_seq t).
Proof. intros HI. eapply nshape_segs. apply HI. Qed.

Lemma inv_leaf T h t s1 id kvs s2 : InvAt T h t -> leaf_seq t = s1 ++ (id, kvs) :: s2 ->
  leaves (t_store T) !! id = Some (Some (mk_leaf kvs (last_id None s1) (hd_id s2 None))).
Proof. intros HI E. pose proof (inv_lrep _ _ _ _ _ _ HI) as H. rewrite E in H. by apply lrep_lookup. Qed.

Lemma inv_leaf_live T h t id l : InvAt T h t -> leaves (t_store T) !! id = Some (Some l) ->
  exists kvs s1 s2, leaf_seq t = s1 ++ (id, kvs) :: s2 /\ l = mk_leaf kvs (last_id None s1) (hd_id s2 None).
Proof.
  intros HI E. pose proof (lrep_live _ _ (inv_lrep _ _ _ _ _ _ HI) _ _ E) as Hin.
  apply elem_of_list_In, in_map_iff in Hin as ([id' kvs] & <- & Hin). simpl in *.
  apply elem_of_list_In, elem_of_list_split in Hin as (s1 & s2 & Es).
  exists kvs, s1, s2. split; [done|]. pose proof (inv_leaf _ _ _ _ _ _ _ HI Es). congruence.
Qed.

Lemma last_id_None s (segs : list seg) : last_id None (segs ++ [s]) = Some s.1.
Proof. by rewrite last_id_app. Qed.

(** ** The cache *)

(** A leaf whose range admits [p] is the leaf the search for [p] ends in. *)
Lemma in_range_home T h t p id kvs mA mB s1 s2 st id' l : InvAt T h t ->
  home T h t p id kvs mA mB s1 s2 st -> leaves (t_store T) !! id' = Some (Some l) ->
  exists b, leaf_in_range l p = Ok b /\ (b = true -> ORD -> id' = id).
Proof.
  intros HI Hm El. destruct (inv_leaf_live _ _ _ _ _ HI El) as (kvs' & s1' & s2' & Es & ->).
  unfold leaf_in_range. cbn [l_prev l_next l_size l_keys mk_leaf].
  pose proof (inv_segs _ _ _ HI) as Hne.
  destruct Hm as [R Hst FA FB D Ef Esq EA EB El' Hsz Hsk].
  assert (ORD -> Forall (fun x : K * V => p x.1 = Lt) (elems mA)) as FA' by (intros HO; apply mleft_elems; auto).
  assert (ORD -> Forall (fun x : K * V => p x.1 = Gt) (elems mB)) as FB' by (intros HO; apply mright_elems; auto).
  clear FA FB.
  assert (ORD -> forall s, s ∈ s1 -> Forall (fun x : K * V => p x.1 = Lt) s.2) as F1.
  { intros HO s Hin. pose proof (FA' HO) as FA. rewrite <- EA in FA. apply elem_of_list_split in Hin as (x & y & ->).
    rewrite map_app, concat_app in FA. simpl in FA. rewrite !Forall_app in FA. tauto. }
  assert (ORD -> forall s, s ∈ s2 -> Forall (fun x : K * V => p x.1 = Gt) s.2) as F2.
  { intros HO s Hin. pose proof (FB' HO) as FB. rewrite <- EB in FB. apply elem_of_list_split in Hin as (x & y & ->).
    rewrite map_app, concat_app in FB. simpl in FB. rewrite !Forall_app in FB. tauto. }
  assert (kvs' <> [] \/ s1' = [] /\ s2' = []) as Hk.
  { destruct Hne as [[i E]|E].
    - rewrite Es in E. right. destruct s1' as [|? s1']; [|by destruct s1']. simpl in E. by destruct s2'.
    - left. rewrite Es in E. apply Forall_app in E as [_ E]. by apply Forall_cons in E as [E _]. }
  assert ((id', kvs') ∈ s1 \/ (id', kvs') = (id, kvs) \/ (id', kvs') ∈ s2) as Hin.
  { assert ((id', kvs') ∈ s1 ++ (id, kvs) :: s2) as Hin by (rewrite <- Esq, Es; ss).
    ss. }
  (* the leaf is not the last one / not the first one *)
  assert ((id', kvs') ∈ s1 -> s2' <> []) as Hs2.
  { intros Hi ->. rewrite Esq in Es. destruct (exists_last (l := (id, kvs) :: s2)) as (y & z & Ey); [done|].
    assert (z = (id', kvs')) as ->.
    { rewrite Ey, app_assoc in Es. by apply app_inj_tail in Es as [_ ->]. }
    pose proof (lrep_nodup _ _ (inv_lrep _ _ _ _ _ _ HI)) as Hnd. rewrite Esq, Ey, !map_app in Hnd.
    apply NoDup_app in Hnd as (_ & Hnd & _). apply (Hnd id').
    - apply elem_of_list_In, in_map_iff. exists (id', kvs'). split; [done|]. by apply elem_of_list_In.
    - simpl. ss. }
  assert ((id', kvs') ∈ s2 -> s1' <> []) as Hs1.
  { intros Hi ->. simpl in Es. rewrite Esq in Es.
    pose proof (lrep_nodup _ _ (inv_lrep _ _ _ _ _ _ HI)) as Hnd. rewrite Esq, map_app in Hnd.
    apply NoDup_app in Hnd as (_ & Hnd & Hnd2). simpl in Hnd2, Hnd. apply NoDup_cons in Hnd2 as [Hnd2 _].
    assert (id' ∈ map fst s2) as Hi2.
    { apply elem_of_list_In, in_map_iff. exists (id', kvs'). split; [done|]. by apply elem_of_list_In. }
    destruct s1 as [|z s1]; simpl in Es; injection Es as E1 E2.
    - congruence.
    - subst z. apply (Hnd id'); [simpl; ss|ss]. }
  destruct kvs' as [|[k0 v0] kvs'].
  { destruct Hk as [?|[-> ->]]; [done|]. simpl. eexists; split; [done|]. intros _ _.
    destruct Hin as [Hin|[[= <- _]|Hin]]; [by specialize (Hs2 Hin)|done|by specialize (Hs1 Hin)]. }
  destruct (exists_last (l := (k0, v0) :: kvs')) as (init & [k1 v1] & El1); [done|].
  assert (((k0, v0) :: kvs') !! 0 = Some (k0, v0)) as G0 by done.
  assert (((k0, v0) :: kvs') !! length kvs' = Some (k1, v1)) as G1.
  { rewrite El1. apply lookup_middle'. apply (f_equal length) in El1. rewrite app_length in El1. simpl in El1. lia. }
  assert (match last_id None s1' with
          | Some _ => let! x := slot_get (mk_slots LEAF_N (keysof ((k0, v0) :: kvs'))) 0 in
                      Ok match p x with Gt => true | _ => false end
          | None => Ok false
          end = Ok (match s1' with [] => false | _ => match p k0 with Gt => true | _ => false end end)) as ->.
  { clear. destruct s1' as [|z s1'' _] using rev_ind; [done|]. rewrite last_id_None.
    rewrite (slot_get_mk _ _ _ k0) by done. destruct (s1'' ++ [z]) eqn:E; [by destruct s1''|done]. }
  rewrite obind_Ok. cbn [length usize_pred]. 
  destruct (match s1' with [] => false | _ => match p k0 with Gt => true | _ => false end end) eqn:B1.
  { by eexists; split; [done|]. }
  assert (match hd_id s2' None with
          | Some _ => let! i := Ok (length kvs') in
                      let! x := slot_get (mk_slots LEAF_N (keysof ((k0, v0) :: kvs'))) i in
                      Ok match p x with Lt => true | _ => false end
          | None => Ok false
          end = Ok (match s2' with [] => false | _ => match p k1 with Lt => true | _ => false end end)) as ->.
  { destruct s2' as [|z s2']; [done|]. simpl hd_id. cbn iota. rewrite obind_Ok.
    rewrite (slot_get_mk _ _ _ k1); [done|]. by eapply keysof_lookup. }
  rewrite obind_Ok. eexists; split; [done|]. intros B2 HO. specialize (F1 HO). specialize (F2 HO).
  destruct Hin as [Hin|[[= <- _]|Hin]]; [|done|].
  - exfalso. specialize (Hs2 Hin). specialize (F1 _ Hin). rewrite Forall_lookup in F1. apply F1 in G1. simpl in G1.
    destruct s2'; [done|]. by rewrite G1 in B2.
  - exfalso. specialize (Hs1 Hin). specialize (F2 _ Hin). rewrite Forall_lookup in F2. apply F2 in G0. simpl in G0.
    destruct s1'; [done|]. by rewrite G0 in B1.
Qed.

(** Whatever the cache word holds, a hit is a leaf of the tree; it is the leaf the
    search ends in. *)
Lemma check_cache_any T h t p id kvs mA mB s1 s2 st c : InvAt T h t ->
  home T h t p id kvs mA mB s1 s2 st ->
  check_cache (t_store T) c p = Ok None \/
  exists id' l, check_cache (t_store T) c p = Ok (Some id') /\ leaves (t_store T) !! id' = Some (Some l) /\
    (ORD -> id' = id).
Proof.
  intros HI Hm. unfold check_cache, try_get_leaf. destruct c as [c|]; [|by left].
  destruct (leaves (t_store T) !! c) as [[l|]|] eqn:E; [|by left..].
  destruct (in_range_home _ _ _ _ _ _ _ _ _ _ _ _ _ HI Hm E) as (b & -> & Hb). rewrite obind_Ok.
  destruct b; [right; exists c, l|by left]. split_and!; auto.
Qed.
Lemma check_cache_ok T h t p id kvs mA mB s1 s2 st c : ORD -> InvAt T h t ->
  home T h t p id kvs mA mB s1 s2 st ->
  check_cache (t_store T) c p = Ok None \/ check_cache (t_store T) c p = Ok (Some id).
Proof.
  intros HO HI Hm. destruct (check_cache_any _ _ _ _ _ _ _ _ _ _ _ c HI Hm) as [->|(id' & l & -> & _ & E)]; [by left|].
  right. by rewrite E.
Qed.

Lemma inv_seg_sorted T h t s1 id kvs s2 : InvAt T h t -> leaf_seq t = s1 ++ (id, kvs) :: s2 ->
  ORD -> sortedm (map emark kvs).
Proof.
  intros HI Es HO. apply sortedm_emark. pose proof (sortedm_elems _ (inv_sorted _ _ _ _ _ _ HI HO)) as Ha.
  rewrite elems_trav in Ha. unfold flat in Ha. rewrite Es, map_app, concat_app in Ha. simpl in Ha.
  unfold ascending in *. apply StronglySorted_app_inv_r, StronglySorted_app_inv_l in Ha. done.
Qed.

(** A lookup in any leaf of the tree. *)
Lemma find_in_leaf_any T h t p s1 id kvs s2 : InvAt T h t -> leaf_seq t = s1 ++ (id, kvs) :: s2 ->
  (ORD -> probe_ok p) ->
  exists o, find_in_leaf (t_store T) id p = Ok o /\ get_any p kvs o /\ (ORD -> o = spec_get p kvs).
Proof.
  intros HI Es Hp. pose proof (inv_leaf _ _ _ _ _ _ _ HI Es) as El.
  pose proof (inv_seg_sorted _ _ _ _ _ _ _ HI Es) as Hsk.
  pose proof (inv_seg_size _ _ _ HI) as Hsz. rewrite Es in Hsz.
  apply Forall_app in Hsz as [_ Hsz]. apply Forall_cons in Hsz as [Hsz _]. simpl in Hsz.
  unfold find_in_leaf, get_leaf. rewrite El, obind_Ok. unfold leaf_locate_slot_with_value.
  destruct (leaf_locate_any p kvs (last_id None s1) (hd_id s2 None) Hp Hsz Hsk) as (r & -> & Hr). rewrite obind_Ok.
  clear Es El Hsk Hsz. destruct r as [i|i].
  - destruct Hr as (a & k & v & b & -> & -> & Hk & Hab). cbn [l_vals mk_leaf].
    rewrite (slot_get_mk _ _ _ v); [|eapply valsof_lookup; by apply lookup_middle'].
    rewrite !obind_Ok. exists (Some v). split_and!; [done|exists k; ss|].
    intros HO. destruct (Hab HO) as [Ha Hb]. by rewrite (proj2 (spec_remove_hit p a k v b Ha Hk)).
  - destruct Hr as (a & b & -> & -> & Hab). rewrite obind_Ok. exists None. split_and!; [done..|].
    intros HO. destruct (Hab HO) as [Ha Hb].
    by rewrite (proj2 (spec_none p (a ++ b) ltac:(apply Forall_app; split; eapply Forall_impl; try done; simpl; congruence))).
Qed.

Lemma find_in_leaf_ok T h t p id kvs mA mB s1 s2 st : ORD -> InvAt T h t -> probe_ok p ->
  home T h t p id kvs mA mB s1 s2 st ->
  find_in_leaf (t_store T) id p = Ok (spec_get p (flat t)).
Proof.
  intros HO HI Hp Hm. rewrite (home_get _ _ _ _ _ _ _ _ _ _ _ HO Hm).
  destruct (find_in_leaf_any T h t p s1 id kvs s2 HI (hm_seq _ _ _ _ _ _ _ _ _ _ _ Hm) (fun _ => Hp)) as (o & -> & _ & Ho).
  by rewrite Ho.
Qed.

Lemma inv_cache T h t c : InvAt T h t -> InvAt (with_store T (mkStore (inners (t_store T)) (leaves (t_store T)) c)) h t.
Proof. intros [H1 H2 H3 H4 H5 H6 H7 H8 H9]. by split. Qed.

Lemma descend_home T h t p id kvs mA mB s1 s2 st : InvAt T h t ->
  home T h t p id kvs mA mB s1 s2 st ->
  descend_to_leaf (descend_fuel (t_store T)) (t_store T) (t_root T) p = Ok id.
Proof.
  intros HI Hm. rewrite (inv_root _ _ _ _ _ _ HI). pose proof (fuel_inv rl ri SYNC T h t HI).
  by apply (proj1 (hm_desc _ _ _ _ _ _ _ _ _ _ _ Hm)).
Qed.

Lemma with_store_id (T : tree) : with_store T (mkStore (inners (t_store T)) (leaves (t_store T)) (cached (t_store T))) = T.
Proof. destruct T as [? ? ? s ?]. by destruct s. Qed.

Lemma get_any_flat p (o : option V) (t : tr) s1 id kvs s2 : leaf_seq t = s1 ++ (id, kvs) :: s2 ->
  get_any p kvs o -> get_any p (flat t) o.
Proof.
  clear. intros Es. destruct o as [v|]; [|done]. intros (k & Hin & Hk). exists k. split; [|done].
  unfold flat. rewrite Es, map_app, concat_app. simpl. ss.
Qed.

Lemma get_any_ok T h t p : InvAt T h t -> (ORD -> probe_ok p) ->
  exists o c, let T' := with_store T (mkStore (inners (t_store T)) (leaves (t_store T)) c) in
    get T p = Ok (o, T') /\ InvAt T' h t /\ get_any p (flat t) o /\ (ORD -> o = spec_get p (flat t)).
Proof.
  intros HI Hp. destruct (home_exists rl ri SYNC T h t p HI Hp) as (id & kvs & mA & mB & s1 & s2 & st & Hm).
  pose proof (hm_seq _ _ _ _ _ _ _ _ _ _ _ Hm) as Es.
  destruct (find_in_leaf_any T h t p s1 id kvs s2 HI Es Hp) as (o & Eo & Hgo & Ho).
  unfold get, try_cache.
  destruct (check_cache_any _ _ _ _ _ _ _ _ _ _ _ (cached (t_store T)) HI Hm) as [->|(id' & l & -> & Hl & Hid)]; rewrite obind_Ok.
  - rewrite (descend_home _ _ _ _ _ _ _ _ _ _ _ HI Hm), obind_Ok.
    change (find_in_leaf (cache_leaf (t_store T) id) id p) with (find_in_leaf (t_store T) id p).
    rewrite Eo, obind_Ok. exists o, (Some id). split_and!; [done|by apply inv_cache|by eapply get_any_flat|].
    intros HO. by rewrite (home_get _ _ _ _ _ _ _ _ _ _ _ HO Hm), Ho.
  - destruct (inv_leaf_live _ _ _ _ _ HI Hl) as (kvs' & s1' & s2' & Es' & _).
    destruct (find_in_leaf_any T h t p s1' id' kvs' s2' HI Es' Hp) as (o' & Eo' & Hgo' & Ho').
    rewrite Eo', obind_Ok. exists o', (cached (t_store T)). rewrite with_store_id.
    split_and!; [done|done|by eapply get_any_flat|].
    intros HO. rewrite (Hid HO), Eo in Eo'. injection Eo' as <-.
    by rewrite (home_get _ _ _ _ _ _ _ _ _ _ _ HO Hm), Ho.
Qed.

Lemma get_ok T h t p : ORD -> InvAt T h t -> probe_ok p ->
  exists c, let T' := with_store T (mkStore (inners (t_store T)) (leaves (t_store T)) c) in
    get T p = Ok (spec_get p (flat t), T') /\ InvAt T' h t.
Proof.
  intros HO HI Hp. destruct (get_any_ok T h t p HI (fun _ => Hp)) as (o & c & E & HI' & _ & Ho).
  exists c. cbv zeta. rewrite E, Ho by done. done.
Qed.

(** ** Replacing the content of one leaf *)
Lemma reach_replace t id kvs mA mB s1 s2 st (kvs' : list (K * V)) :
  reach t id kvs mA mB s1 s2 st -> length kvs' = length kvs ->
  exists t' : tr, reach t' id kvs' mA mB s1 s2 st /\ nid t' = nid t /\ inner_ids t' = inner_ids t /\
    (forall b h, shape rl ri b h t -> shape rl ri b h t') /\
    (forall m b h, nshape rl ri m b h t -> nshape rl ri m b h t') /\
    ((SYNC -> from_leaf (A:=A) (keysof kvs') (valsof kvs') = from_leaf (keysof kvs) (valsof kvs)) ->
      (SYNC -> aug_of (A:=A) t' = aug_of t) /\
      forall (is : list (option (inner K A))) h, irep SYNC is h t -> irep SYNC is h t').
Proof.
  intros R Hl. induction R as [id kvs|nid' kl kr cl c cr id kvs mA mB s1 s2 st H1 H2 Hr IH].
  - exists (TLeaf id kvs'). split; [constructor|]. do 2 (split; [done|]). split; [|split].
    + intros b [|h]; simpl; [|done]. by rewrite Hl.
    + intros m b [|h]; simpl; [|done]. by rewrite Hl.
    + intros Hf. split; [done|]. intros is [|h]; done.
  - destruct (IH Hl) as (c' & R' & En & Ei & Hsh & Hns & Hau).
    assert (forall b h, chs (fun b' => shape rl ri b' h) b (cl ++ c :: cr) ->
      chs (fun b' => shape rl ri b' h) b (cl ++ c' :: cr)) as Hc.
    { intros b h. rewrite !chs_app. intros (X1 & X2 & X3). split; [done|]. split; [|done]. by apply Hsh. }
    assert (length (cl ++ c' :: cr) = length (cl ++ c :: cr)) as Hlen by (by rewrite !app_length).
    exists (TNode nid' (kl ++ kr) (cl ++ c' :: cr)). split; [|split; [done|split]].
    + rewrite <- En. by constructor.
    + simpl. rewrite !map_app. simpl. by rewrite Ei.
    + split; [|split].
      * intros b [|h]; [done|]. simpl. rewrite Hlen. intros (X1 & X2 & X3). split; [done|]. split; [done|]. by apply Hc.
      * intros m b [|h]; [done|]. simpl. rewrite Hlen. intros (X1 & X2 & X3). split; [done|]. split; [done|]. by apply Hc.
      * intros Hf. destruct (Hau Hf) as [Ha Hi]. split.
        -- intros HS. simpl. rewrite !map_app. simpl. by rewrite Ha.
        -- intros is [|h]; [done|]. simpl. intros [(aus & X1 & X2 & X3) X4].
           rewrite Forall_app, Forall_cons in X4. destruct X4 as (X4 & X5 & X6). split.
           ++ exists aus. rewrite Hlen. split; [|split; [done|]].
              ** rewrite X1, !map_app. simpl. by rewrite En.
              ** intros HS. rewrite X3 by done. rewrite !map_app. simpl. by rewrite Ha.
           ++ rewrite Forall_app, Forall_cons. split_and!; [done|by apply Hi|done].
Qed.

Lemma sortedm_values (mA mB : list mark) (kvs kvs' : list (K * V)) : keysof kvs' = keysof kvs ->
  sortedm (mA ++ map emark kvs ++ mB) -> sortedm (mA ++ map emark kvs' ++ mB).
Proof.
  intros E. assert (forall x : mark, Forall (ltm x) (map emark kvs) -> Forall (ltm x) (map emark kvs')) as F1.
  { intros [k0 o]. revert kvs E. induction kvs' as [|[k v] kvs' IH]; intros [|[k' v'] kvs]; try done.
    simpl. intros [= -> E]. rewrite !Forall_cons. intros [X1 X2]. split; [|by eapply IH].
    by eapply ltm_some_r. }
  assert (forall x : mark, Forall (fun y => ltm y x) (map emark kvs) -> Forall (fun y => ltm y x) (map emark kvs')) as F2.
  { intros [k0 o]. clear F1. revert kvs E. induction kvs' as [|[k v] kvs' IH]; intros [|[k' v'] kvs]; try done.
    simpl. intros [= -> E]. rewrite !Forall_cons. intros [X1 X2]. split; [|by eapply IH].
    by eapply ltm_some_l. }
  rewrite !sortedm_app. intros (X1 & (X2 & X3 & X4) & X5).
  assert (sortedm (map emark kvs')) as Hs.
  { apply sortedm_emark. apply ascending_emark in X2. clear - X2 E. unfold ascending in *.
    revert kvs' E. induction X2 as [|[k v] kvs Hs IH Hf]; intros [|[k' v'] kvs'] E; simpl in *; try done; try constructor.
    - injection E as -> E. by apply IH.
    - injection E as -> E. clear -Hf E. revert kvs' E.
      induction Hf as [|[k0 v0] kvs H Hf IH]; intros [|[k1 v1] kvs'] E; simpl in *; try done; try constructor;
        injection E as -> E; [done|by apply IH]. }
  split_and!; try done.
  - intros x y Hx Hy. revert x Hx y Hy. assert (forall y, y ∈ mB -> Forall (fun x => ltm x y) (map emark kvs')) as Q.
    { intros y Hy. apply F2, Forall_forall. intros x Hx. by apply X4. }
    intros x Hx y Hy. specialize (Q _ Hy). rewrite Forall_forall in Q. by apply Q.
  - intros x y Hx. rewrite elem_of_app. intros [Hy|Hy]; [|apply X5; ss].
    assert (Forall (ltm x) (map emark kvs')) as Q.
    { apply F1, Forall_forall. intros z Hz. apply X5; ss. }
    rewrite Forall_forall in Q. by apply Q.
Qed.

Lemma leaf_write_ok T h t id kvs mA mB s1 s2 st kvs' c : InvAt T h t ->
  reach t id kvs mA mB s1 s2 st -> keysof kvs' = keysof kvs ->
  (SYNC -> from_leaf (A:=A) (keysof kvs') (valsof kvs') = from_leaf (keysof kvs) (valsof kvs)) ->
  exists t', InvAt (with_store T (mkStore (inners (t_store T))
      (<[id := Some (mk_leaf kvs' (last_id None s1) (hd_id s2 None))]> (leaves (t_store T))) c)) h t' /\
    flat t' = elems mA ++ kvs' ++ elems mB /\ reach t' id kvs' mA mB s1 s2 st.
Proof.
  intros [H1 H2 H3 H4 H5 H6 H7 H8 H9] R Ek Hf.
  assert (length kvs' = length kvs) as Hl by (by rewrite <- (keysof_length kvs'), Ek, keysof_length).
  destruct (reach_replace _ _ _ _ _ _ _ _ kvs' R Hl) as (t' & R' & En & Ei & _ & Hn & Ha).
  destruct (Ha Hf) as [Hau Hi]. exists t'.
  pose proof (reach_seq _ _ _ _ _ _ _ _ R) as (Eseq & _ & _).
  pose proof (reach_seq _ _ _ _ _ _ _ _ R') as (Eseq' & _ & _).
  assert (flat t' = elems mA ++ kvs' ++ elems mB) as Ef'.
  { rewrite <- elems_trav, (reach_trav _ _ _ _ _ _ _ _ R'), !elems_app, elems_emark. done. }
  assert (flat t = elems mA ++ kvs ++ elems mB) as Ef.
  { rewrite <- elems_trav, (reach_trav _ _ _ _ _ _ _ _ R), !elems_app, elems_emark. done. }
  assert (length (flat t') = length (flat t)) as El by (rewrite Ef, Ef', !app_length; lia).
  split; [|done]. split; cbn [t_root t_store inners leaves t_len t_aug with_store].
  - by rewrite En.
  - by apply Hi.
  - rewrite Eseq' in *. rewrite Eseq in H3. by eapply lrep_update.
  - by rewrite Ei.
  - rewrite (reach_trav _ _ _ _ _ _ _ _ R'). rewrite (reach_trav _ _ _ _ _ _ _ _ R) in H5. intros HO. eapply sortedm_values; [done|by apply H5].
  - by apply Hn.
  - by rewrite El.
  - intros HS. rewrite Hau by done. destruct (H8 HS) as [?|[X1 X2]]; [by left|right]. split; [|done].
    apply length_zero_iff_nil. by rewrite El, X1.
  - rewrite Ei. done.
Qed.

(** A write through [get_mut] in any leaf of the tree. *)
Lemma find_in_leaf_mut_any T h t p f s1 id kvs s2 c : InvAt T h t -> leaf_seq t = s1 ++ (id, kvs) :: s2 ->
  (ORD -> probe_ok p) ->
  exists o kvs', find_in_leaf_mut (mkStore (inners (t_store T)) (leaves (t_store T)) c) id p f =
      Ok (o, mkStore (inners (t_store T))
         (<[id := Some (mk_leaf kvs' (last_id None s1) (hd_id s2 None))]> (leaves (t_store T))) c) /\
    upd_any p f kvs o kvs' /\ (ORD -> o = spec_get p kvs /\ kvs' = spec_update p f kvs).
Proof.
  intros HI Es Hp. pose proof (inv_leaf _ _ _ _ _ _ _ HI Es) as El.
  pose proof (inv_seg_sorted _ _ _ _ _ _ _ HI Es) as Hsk.
  pose proof (inv_seg_size _ _ _ HI) as Hsz. rewrite Es in Hsz.
  apply Forall_app in Hsz as [_ Hsz]. apply Forall_cons in Hsz as [Hsz _]. simpl in Hsz.
  unfold find_in_leaf_mut, get_leaf, leaf_locate_slot_mut. cbn [leaves]. rewrite El, obind_Ok.
  destruct (leaf_locate_any p kvs (last_id None s1) (hd_id s2 None) Hp Hsz Hsk) as (r & -> & Hr). rewrite obind_Ok.
  clear Es Hsk Hsz. destruct r as [i|i].
  - destruct Hr as (a & k & v & b & -> & -> & Hk & Hab).
    rewrite (leaf_value_at_mut_mk _ _ _ _ k v) by (by apply lookup_middle'). rewrite !obind_Ok.
    rewrite insert_middle' by done. eexists _, _. split; [done|]. split; [by exists a, k, b|].
    intros HO. destruct (Hab HO) as [Ha Hb].
    rewrite (proj2 (spec_remove_hit p a k v b Ha Hk)). split; [done|].
    assert (spec_update p f (a ++ [(k, v)] ++ b) = a ++ (k, f v) :: b) as Eu.
    { rewrite spec_update_mid by (eapply Forall_impl; [done|]; simpl; congruence). simpl. by rewrite Hk. }
    simpl in Eu. by rewrite Eu.
  - destruct Hr as (a & b & -> & -> & Hab). rewrite obind_Ok.
    exists None, (a ++ b). split.
    { unfold put_leaf, set_leaves. cbn [inners leaves cached]. done. }
    split; [done|]. intros HO. destruct (Hab HO) as [Ha Hb].
    assert (Forall (fun x : K * V => p x.1 <> Eq) (a ++ b)) as Hn
      by (apply Forall_app; split; eapply Forall_impl; try done; simpl; congruence).
    by rewrite (proj2 (spec_none p (a ++ b) Hn)), spec_update_none.
Qed.

Lemma upd_any_keys (p : probe K) (f : V -> V) (l : list (K * V)) (o : option V) l' : upd_any p f l o l' -> keysof l' = keysof l.
Proof.
  clear. destruct o as [v|]; simpl; [|by intros ->]. intros (a & k & b & -> & _ & ->). unfold keysof. by rewrite !map_app.
Qed.
Lemma upd_any_mid (p : probe K) (f : V -> V) (a l : list (K * V)) (o : option V) l' c : upd_any p f l o l' -> upd_any p f (a ++ l ++ c) o (a ++ l' ++ c).
Proof.
  clear. destruct o as [v|]; simpl; [|by intros ->]. intros (x & k & y & -> & E & ->).
  exists (a ++ x), k, (y ++ c). rewrite <- !app_assoc. done.
Qed.

Lemma leaf_seq_reach (t : tr) s1 id kvs s2 h b m : nshape rl ri m b h t -> leaf_seq t = s1 ++ (id, kvs) :: s2 ->
  exists mA mB st, reach t id kvs mA mB s1 s2 st.
Proof.
  clear Hrl1. revert t s1 s2 m b. induction h as [|h IH]; intros [i l|i ks ch] s1 s2 m b Hn Es; try done.
  - simpl in Es. destruct s1 as [|? s1]; [|by destruct s1]. injection Es as -> -> <-.
    exists [], [], []. constructor.
  - destruct Hn as (_ & Hl & Hc). change (concat (map leaf_seq ch) = s1 ++ (id, kvs) :: s2) in Es.
    assert (exists cl c cr s1' s2', ch = cl ++ c :: cr /\ leaf_seq c = s1' ++ (id, kvs) :: s2' /\
      s1 = concat (map leaf_seq cl) ++ s1' /\ s2 = s2' ++ concat (map leaf_seq cr)) as (cl & c & cr & s1' & s2' & -> & Ec & -> & ->).
    { clear -Es. revert s1 Es. induction ch as [|c ch IH]; intros s1 Es; [by destruct s1|]. simpl in Es.
      apply app_eq_inv in Es as [(k & E1 & E2)|(k & E1 & E2)].
      - destruct k as [|x k].
        + rewrite app_nil_r in E1. simpl in E2. destruct (IH [] (eq_sym E2)) as (cl & c' & cr & s1' & s2' & -> & X1 & X2 & ->).
          exists (c :: cl), c', cr, s1', s2'. split_and!; try done. simpl. rewrite <- app_assoc, <- X2, app_nil_r. done.
        + injection E2 as <- E2. exists [], c, ch, s1, k. done.
      - destruct (IH k E2) as (cl & c' & cr & s1' & s2' & -> & X1 & -> & ->).
        exists (c :: cl), c', cr, s1', s2'. split_and!; try done. simpl. by rewrite E1, <- app_assoc. }
    apply chs_app in Hc as (_ & Hc & _). apply shape_nshape in Hc.
    destruct (IH c s1' s2' _ _ Hc Ec) as (mA & mB & st & R).
    rewrite app_length in Hl. simpl in Hl.
    rewrite <- (take_drop (length cl) ks). eexists _, _, _. constructor; [rewrite take_length; lia|rewrite drop_length; lia|exact R].
Qed.

Lemma get_mut_any_ok T h t p f : InvAt T h t -> (ORD -> probe_ok p) -> (SYNC -> key_aug (K:=K) (V:=V) (A:=A)) ->
  exists o T' t', get_mut T p f = Ok (o, T') /\ InvAt T' h t' /\ upd_any p f (flat t) o (flat t').
Proof.
  intros HI Hp Hka. destruct (home_exists rl ri SYNC T h t p HI Hp) as (id & kvs & mA & mB & s1 & s2 & st & Hm).
  assert (exists id' kvs' s1' s2' c, leaf_seq t = s1' ++ (id', kvs') :: s2' /\
    get_mut T p f = let! '(r, s) := find_in_leaf_mut (mkStore (inners (t_store T)) (leaves (t_store T)) c) id' p f in
      Ok (r, with_store T s)) as (id' & kvs' & s1' & s2' & c & Es & ->).
  { unfold get_mut, try_cache.
    destruct (check_cache_any _ _ _ _ _ _ _ _ _ _ _ (cached (t_store T)) HI Hm) as [->|(id' & l & -> & Hl & _)]; rewrite obind_Ok.
    - rewrite (descend_home _ _ _ _ _ _ _ _ _ _ _ HI Hm), obind_Ok. eexists id, kvs, s1, s2, (Some id).
      split; [apply Hm|]. done.
    - destruct (inv_leaf_live _ _ _ _ _ HI Hl) as (kvs' & s1' & s2' & Es' & _).
      exists id', kvs', s1', s2', (cached (t_store T)). split; [done|]. by destruct (t_store T). }
  destruct (find_in_leaf_mut_any T h t p f s1' id' kvs' s2' c HI Es Hp) as (o & kvs2 & -> & Hu & _). rewrite obind_Ok.
  destruct (leaf_seq_reach t s1' id' kvs' s2' h _ _ (inv_shape _ _ _ _ _ _ HI) Es) as (mA' & mB' & st' & R).
  destruct (leaf_write_ok T h t id' kvs' mA' mB' s1' s2' st' kvs2 c HI R) as (t' & HI' & Et' & _).
  { by eapply upd_any_keys. }
  { intros HS. pose proof (upd_any_keys _ _ _ _ _ Hu) as Ek. rewrite Ek. apply Hka; [done|].
    rewrite !valsof_length, <- (keysof_length kvs2), <- (keysof_length kvs'), Ek. done. }
  exists o. eexists _, t'. split; [done|]. split; [done|]. rewrite Et'.
  rewrite <- elems_trav, (reach_trav _ _ _ _ _ _ _ _ R), !elems_app, elems_emark. by apply upd_any_mid.
Qed.

Lemma get_mut_home T h t p f id kvs mA mB s1 s2 st : ORD -> InvAt T h t -> probe_ok p ->
  home T h t p id kvs mA mB s1 s2 st ->
  exists c, get_mut T p f = Ok (spec_get p (flat t), with_store T (mkStore (inners (t_store T))
    (<[id := Some (mk_leaf (spec_update p f kvs) (last_id None s1) (hd_id s2 None))]> (leaves (t_store T))) c)).
Proof.
  intros HO HI Hp Hm. pose proof (home_get _ _ _ _ _ _ _ _ _ _ _ HO Hm) as Hget.
  assert (forall c, find_in_leaf_mut (mkStore (inners (t_store T)) (leaves (t_store T)) c) id p f =
        Ok (spec_get p (flat t), mkStore (inners (t_store T))
           (<[id := Some (mk_leaf (spec_update p f kvs) (last_id None s1) (hd_id s2 None))]> (leaves (t_store T))) c))
    as Efind.
  { intros c. destruct (find_in_leaf_mut_any T h t p f s1 id kvs s2 c HI (hm_seq _ _ _ _ _ _ _ _ _ _ _ Hm) (fun _ => Hp))
      as (o & kvs' & -> & _ & Ho). destruct (Ho HO) as [-> ->]. by rewrite Hget. }
  unfold get_mut, try_cache.
  destruct (check_cache_ok _ _ _ _ _ _ _ _ _ _ _ (cached (t_store T)) HO HI Hm) as [->| ->]; rewrite obind_Ok.
  - rewrite (descend_home _ _ _ _ _ _ _ _ _ _ _ HI Hm), obind_Ok. unfold cache_leaf. rewrite Efind, obind_Ok. by eexists.
  - destruct (t_store T) as [is ls c] eqn:ES. cbn [inners leaves cached] in *. rewrite Efind, obind_Ok. by eexists.
Qed.

Lemma get_mut_ok T h t p f : ORD -> InvAt T h t -> probe_ok p -> (SYNC -> key_aug (K:=K) (V:=V) (A:=A)) ->
  exists T' t', get_mut T p f = Ok (spec_get p (flat t), T') /\ InvAt T' h t' /\ flat t' = spec_update p f (flat t).
Proof.
  intros HO HI Hp Hka. destruct (home_exists rl ri SYNC T h t p HI (fun _ => Hp)) as (id & kvs & mA & mB & s1 & s2 & st & Hm).
  destruct (get_mut_home T h t p f id kvs mA mB s1 s2 st HO HI Hp Hm) as (c & ->).
  destruct (leaf_write_ok T h t id kvs mA mB s1 s2 st (spec_update p f kvs) c HI (hm_reach _ _ _ _ _ _ _ _ _ _ _ Hm))
    as (t' & HI' & Et' & _).
  { by rewrite spec_update_keys. }
  { intros HS. rewrite spec_update_keys. apply Hka; [done|]. by rewrite !valsof_length, spec_update_length. }
  eexists _, t'. split; [done|]. split; [done|]. rewrite Et'.
  destruct Hm as [R Hst FA FB D Ef Esq EA EB El Hsz Hsk]. rewrite Ef, spec_update_mid; [done|..].
  - eapply Forall_impl; [by apply mleft_elems, FA|]. simpl. congruence.
  - eapply Forall_impl; [by apply mright_elems, FB|]. simpl. congruence.
Qed.

(** ** First and last leaf *)
Lemma descend_first_ok (s : store) m b h (t : tr) : irep SYNC (inners s) h t -> nshape rl ri m b h t ->
  exists id kvs rest, leaf_seq t = (id, kvs) :: rest /\
    forall fuel, h <= fuel -> descend_first fuel s (nid t) = Ok id.
Proof.
  revert m b t. induction h as [|h IH]; intros m b [id kvs|id ks ch] Hi Hn; try done.
  - exists id, kvs, []. split; [done|]. by intros [|fuel].
  - destruct Hi as [(aus & E & _) Hf]. destruct Hn as (_ & Hl & Hc). destruct ch as [|c ch]; [done|].
    apply Forall_cons in Hf as [Hf _]. apply (chs_app _ _ [] c ch) in Hc as (_ & Hc & _).
    apply shape_nshape in Hc. destruct (IH _ _ c Hf Hc) as (i & kvs & rest & Es & Hd).
    exists i, kvs, (rest ++ concat (map leaf_seq ch)). split; [simpl; by rewrite Es|].
    intros [|fuel] Hfu; [lia|]. simpl. unfold get_inner. rewrite E, obind_Ok.
    rewrite (inner_child_id_mk _ _ _ _ (nid c)) by done. rewrite obind_Ok. apply Hd. lia.
Qed.

Lemma descend_last_ok (s : store) m b h (t : tr) : irep SYNC (inners s) h t -> nshape rl ri m b h t ->
  exists id kvs rest, leaf_seq t = rest ++ [(id, kvs)] /\
    forall fuel, h <= fuel -> descend_last fuel s (nid t) = Ok id.
Proof.
  revert m b t. induction h as [|h IH]; intros m b [id kvs|id ks ch] Hi Hn; try done.
  - exists id, kvs, []. split; [done|]. by intros [|fuel].
  - destruct Hi as [(aus & E & _) Hf]. destruct Hn as (_ & Hl & Hc).
    destruct (exists_last (l := ch)) as (ch' & c & ->); [by destruct ch|].
    apply Forall_app in Hf as [_ Hf]. apply Forall_cons in Hf as [Hf _].
    apply (chs_app _ _ ch' c []) in Hc as (_ & Hc & _).
    apply shape_nshape in Hc. destruct (IH _ _ c Hf Hc) as (i & kvs & rest & Es & Hd).
    exists i, kvs, (concat (map leaf_seq ch') ++ rest). split.
    { simpl. rewrite map_app, concat_app. simpl. by rewrite Es, app_nil_r, app_assoc. }
    intros [|fuel] Hfu; [lia|]. simpl. unfold get_inner. rewrite E, obind_Ok.
    rewrite (inner_child_id_mk _ _ _ _ (nid c)).
    + rewrite obind_Ok. apply Hd. lia.
    + cbn [i_size mk_inner]. rewrite map_app. apply lookup_middle'.
      rewrite map_length. rewrite app_length in Hl. simpl in Hl. lia.
Qed.

Lemma first_leaf_ok T h t : InvAt T h t -> exists id kvs rest, leaf_seq t = (id, kvs) :: rest /\ first_leaf T = Ok id.
Proof.
  intros HI. destruct (descend_first_ok (t_store T) _ _ h t (inv_irep _ _ _ _ _ _ HI) (inv_shape _ _ _ _ _ _ HI))
    as (id & kvs & rest & E & Hd).
  exists id, kvs, rest. split; [done|]. unfold first_leaf. rewrite (inv_root _ _ _ _ _ _ HI). apply Hd.
  by eapply (fuel_inv rl ri SYNC).
Qed.

Lemma last_leaf_ok T h t : InvAt T h t -> exists id kvs rest, leaf_seq t = rest ++ [(id, kvs)] /\ last_leaf T = Ok id.
Proof.
  intros HI. destruct (descend_last_ok (t_store T) _ _ h t (inv_irep _ _ _ _ _ _ HI) (inv_shape _ _ _ _ _ _ HI))
    as (id & kvs & rest & E & Hd).
  exists id, kvs, rest. split; [done|]. unfold last_leaf. rewrite (inv_root _ _ _ _ _ _ HI). apply Hd.
  by eapply (fuel_inv rl ri SYNC).
Qed.

Lemma is_empty_ok T h t : InvAt T h t -> is_empty T = bool_decide (flat t = []).
Proof.
  intros HI. unfold is_empty. rewrite (inv_len _ _ _ _ _ _ HI). apply bool_decide_ext.
  symmetry. rewrite <- length_zero_iff_nil. done.
Qed.

Lemma first_ok T h t : InvAt T h t -> first T = Ok (head (flat t)).
Proof.
  intros HI. unfold first. rewrite (is_empty_ok _ _ _ HI).
  destruct (flat t) as [|kv l] eqn:Ef; [done|]. rewrite bool_decide_false by done.
  destruct (first_leaf_ok _ _ _ HI) as (id & kvs & rest & Es & ->). rewrite obind_Ok.
  unfold get_leaf. rewrite (inv_leaf _ _ _ [] _ _ _ HI Es), obind_Ok.
  destruct (inv_segs _ _ _ HI) as [[i E]|E].
  - rewrite Es in E. injection E as -> -> ->. by unfold flat in Ef; rewrite Es in Ef.
  - rewrite Es in E. apply Forall_cons in E as [E _]. simpl in E.
    destruct kvs as [|kv' kvs]; [done|]. unfold flat in Ef. rewrite Es in Ef. simpl in Ef. injection Ef as -> Ef.
    rewrite (leaf_data_at_mk _ _ _ _ kv) by done. done.
Qed.

Lemma last_ok T h t : InvAt T h t -> Tree.last T = Ok (list.last (flat t)).
Proof.
  intros HI. unfold Tree.last. rewrite (is_empty_ok _ _ _ HI).
  destruct (decide (flat t = [])) as [Ef|Hf].
  { rewrite bool_decide_true by done. by rewrite Ef. }
  rewrite bool_decide_false by done.
  destruct (last_leaf_ok _ _ _ HI) as (id & kvs & rest & Es & ->). rewrite obind_Ok.
  unfold get_leaf. rewrite (inv_leaf _ _ _ rest _ _ [] HI Es), obind_Ok.
  destruct (inv_segs _ _ _ HI) as [[i E]|E].
  - exfalso. apply Hf. unfold flat. by rewrite E.
  - rewrite Es in E. apply Forall_app in E as [_ E]. apply Forall_cons in E as [E _]. simpl in E.
    destruct (exists_last E) as (kvs' & kv & ->).
    cbn [l_size mk_leaf]. rewrite app_length, Nat.add_1_r. cbn [usize_pred]. rewrite obind_Ok.
    rewrite (leaf_data_at_mk _ _ _ _ kv) by (by apply lookup_middle'). rewrite obind_Ok.
    unfold flat. rewrite Es, map_app, concat_app. simpl. rewrite app_nil_r, app_assoc, last_snoc. done.
Qed.
End Inv.
End Lookup.
