(** An entry reference found by any search is the one the key search finds. *)
From stdpp Require Import list sorting.
From Verif Require Import Base Slots BinSearch LeafNode InnerNode Store Tree Remove Iterators Augment BulkLoad History
  SlotLemmas NodeLemmas Spec Order Logical Descent InsertProof InvLemmas InsertTop
  RemoveLeaf RemoveInner RemoveProof RemoveTop Lookup.

Section RefProof.
Context {K V A : Type} {KO : KeyOps K} {PF : Profile} {OL : OrdLaws K} {AO : AugOps K V A}.
Notation tr := (tr K V).
Notation tree := (tree K V A).
Notation store := (store K V A).

Lemma spec_get_at (l : list (K * V)) i k v : ascending l -> l !! i = Some (k, v) -> spec_get (probe_key k) l = Some v.
Proof.
  intros Ha. revert i. induction Ha as [|[k' v'] l Ha IH Hl]; intros [|i] E; try done; simpl in *; unfold probe_key in *.
  - injection E as -> ->. by rewrite ord_refl.
  - eapply Forall_lookup_1 in Hl; [|exact E]. simpl in Hl. rewrite Hl. by eapply IH.
Qed.
Lemma spec_remove_at (l : list (K * V)) i k v : ascending l -> l !! i = Some (k, v) ->
  spec_remove (probe_key k) l = delete i l.
Proof.
  intros Ha. revert i. induction Ha as [|[k' v'] l Ha IH Hl]; intros [|i] E; try done; simpl in *; unfold probe_key in *.
  - injection E as -> ->. by rewrite ord_refl.
  - eapply Forall_lookup_1 in Hl; [|exact E]. simpl in Hl. rewrite Hl. f_equal. by eapply IH.
Qed.
Lemma spec_update_at f (l : list (K * V)) i k v : ascending l -> l !! i = Some (k, v) ->
  spec_update (probe_key k) f l = <[i := (k, f v)]> l.
Proof.
  intros Ha. revert i. induction Ha as [|[k' v'] l Ha IH Hl]; intros [|i] E; try done; simpl in *; unfold probe_key in *.
  - injection E as -> ->. by rewrite ord_refl.
  - eapply Forall_lookup_1 in Hl; [|exact E]. simpl in Hl. rewrite Hl. f_equal. by eapply IH.
Qed.

Lemma split_unique {X B} (f : X -> list B) (b : B) cl c cr cl' c' cr' :
  cl ++ c :: cr = cl' ++ c' :: cr' -> NoDup (concat (map f (cl ++ c :: cr))) -> b ∈ f c -> b ∈ f c' ->
  cl = cl' /\ c = c' /\ cr = cr'.
Proof.
  revert cl'. induction cl as [|x cl IH]; intros [|y cl'] E Hn H1 H2; simpl in *; injection E as -> E.
  - done.
  - exfalso. subst cr. apply NoDup_app in Hn as (_ & Hn & _). apply (Hn b H1).
    rewrite map_app, concat_app. simpl. rewrite !elem_of_app. tauto.
  - exfalso. apply NoDup_app in Hn as (_ & Hn & _). apply (Hn b H2).
    rewrite map_app, concat_app. simpl. rewrite !elem_of_app. tauto.
  - apply NoDup_app in Hn as (_ & _ & Hn). destruct (IH cl' E Hn H1 H2) as (-> & -> & ->). done.
Qed.

Lemma reach_in t id kvs mA mB s1 s2 st : reach (K:=K) (V:=V) t id kvs mA mB s1 s2 st -> id ∈ map fst (leaf_seq t).
Proof.
  intros R. destruct (reach_seq _ _ _ _ _ _ _ _ R) as [-> _]. rewrite map_app. simpl. apply elem_of_app. right. apply elem_of_cons. by left.
Qed.

Lemma reach_inj t id kvs mA mB s1 s2 st kvs' mA' mB' s1' s2' st' :
  reach (K:=K) (V:=V) t id kvs mA mB s1 s2 st -> reach t id kvs' mA' mB' s1' s2' st' ->
  NoDup (map fst (leaf_seq t)) ->
  st = st' /\ kvs = kvs' /\ mA = mA' /\ mB = mB' /\ s1 = s1' /\ s2 = s2'.
Proof.
  intros R. revert kvs' mA' mB' s1' s2' st'.
  induction R as [id kvs|n kl kr cl c cr id kvs mA mB s1 s2 st H1 H2 R IH]; intros kvs' mA' mB' s1' s2' st' R' Hn;
    inversion R' as [|n' kl' kr' cl' c' cr' ? ? mA1 mB1 s3 s4 st1 H1' H2' R1 Eks Ech]; subst; [done|].
  assert (NoDup (concat (map (fun c => map fst (leaf_seq c)) (cl ++ c :: cr)))) as Hn'.
  { revert Hn. change (leaf_seq (TNode n (kl ++ kr) (cl ++ c :: cr))) with (concat (map leaf_seq (cl ++ c :: cr))).
    by rewrite concat_map, map_map. }
  destruct (split_unique (fun c => map fst (leaf_seq c)) id _ _ _ _ _ _ (eq_sym H0) Hn') as (<- & <- & <-);
    [by eapply reach_in|by eapply reach_in|].
  apply app_inj_1 in H as [<- <-]; [|lia].
  assert (NoDup (map fst (leaf_seq c))) as Hc.
  { rewrite map_app, concat_app in Hn'. apply NoDup_app in Hn' as (_ & _ & Hn'). simpl in Hn'. by apply NoDup_app in Hn' as (? & _). }
  destruct (IH _ _ _ _ _ _ R1 Hc) as (-> & -> & -> & -> & -> & ->). done.
Qed.

Section Ref.
Context (rl ri : nat) (SYNC : Prop).
Notation InvAt := (InvAt (A:=A) rl ri SYNC).

(** The leaf holding an entry is the home of the entry's key. *)
Lemma home_at T h t k v id kvs mA mB s1 s2 st off : InvAt T h t ->
  reach t id kvs mA mB s1 s2 st -> kvs !! off = Some (k, v) ->
  home T h t (probe_key k) id kvs mA mB s1 s2 st.
Proof.
  intros HI R Ho. destruct (home_exists rl ri SYNC T h t (probe_key k) HI (fun _ => probe_key_ok k))
    as (id' & kvs' & mA' & mB' & s1' & s2' & st' & Hm).
  pose proof Hm as Hm'. destruct Hm' as [R' Hst FA FB D Ef Esq EA EB El Hsz Hsk].
  destruct (reach_seq _ _ _ _ _ _ _ _ R) as [Es _].
  pose proof (lrep_nodup _ _ (inv_lrep _ _ _ _ _ _ HI)) as Hnd.
  assert ((k, v) ∈ kvs) as Hin by (by eapply elem_of_list_lookup_2).
  assert ((id, kvs) ∈ leaf_seq t) as Hs by (rewrite Es, elem_of_app, elem_of_cons; tauto).
  assert (id = id') as <-.
  { specialize (FA I). specialize (FB I). apply mleft_elems in FA. apply mright_elems in FB. rewrite Forall_forall in FA, FB.
    rewrite Esq, elem_of_app, elem_of_cons in Hs. destruct Hs as [Hs|[Hs|Hs]]; [exfalso| |exfalso].
    - assert ((k, v) ∈ elems mA') as Hx.
      { rewrite <- EA. apply elem_of_list_In, in_concat. exists kvs. split; [|by apply elem_of_list_In].
        apply in_map_iff. exists (id, kvs). split; [done|by apply elem_of_list_In]. }
      apply FA in Hx. unfold probe_key in Hx. simpl in Hx. by rewrite ord_refl in Hx.
    - congruence.
    - assert ((k, v) ∈ elems mB') as Hx.
      { rewrite <- EB. apply elem_of_list_In, in_concat. exists kvs. split; [|by apply elem_of_list_In].
        apply in_map_iff. exists (id, kvs). split; [done|by apply elem_of_list_In]. }
      apply FB in Hx. unfold probe_key in Hx. simpl in Hx. by rewrite ord_refl in Hx. }
  destruct (reach_inj _ _ _ _ _ _ _ _ _ _ _ _ _ _ R R' Hnd) as (-> & -> & -> & -> & -> & ->). done.
Qed.

Lemma locate_at kvs off k v pr nx : sortedm (map (emark (K:=K) (V:=V)) kvs) -> length kvs <= 64 -> kvs !! off = Some (k, v) ->
  leaf_locate_slot (mk_leaf kvs pr nx) (probe_key k) = Ok (ROk off).
Proof.
  intros Hs Hl Ho. destruct (leaf_locate_ok (probe_key k) kvs pr nx (probe_key_ok k) Hl Hs) as (r & Er & Hr).
  rewrite Er. f_equal. apply elem_of_list_split_length in Ho as (x & y & -> & ->).
  assert (kcmp k k = Eq) as Hkk by apply ord_refl.
  destruct r as [i|i].
  - destruct Hr as (a & k' & v' & b & E & -> & Ha & Hk & Hb). f_equal.
    destruct (decide (length a = length x)) as [->|Hne]; [done|exfalso].
    assert ((a ++ (k', v') :: b) !! length x = Some (k, v)) as Hx by (rewrite <- E; by apply lookup_middle').
    destruct (decide (length x < length a)).
    + rewrite lookup_app_l in Hx by lia. eapply Forall_lookup_1 in Ha; [|exact Hx]. unfold probe_key in Ha. simpl in Ha. congruence.
    + rewrite lookup_app_r in Hx by lia. destruct (length x - length a) as [|m] eqn:Em; [lia|]. simpl in Hx.
      eapply Forall_lookup_1 in Hb; [|exact Hx]. unfold probe_key in Hb. simpl in Hb. congruence.
  - exfalso. destruct Hr as (a & b & E & -> & Ha & Hb).
    assert ((k, v) ∈ a ++ b) as Hin by (rewrite <- E, elem_of_app, elem_of_cons; tauto).
    apply elem_of_app in Hin as [Hin|Hin].
    + rewrite Forall_forall in Ha. apply Ha in Hin. unfold probe_key in Hin. simpl in Hin. congruence.
    + rewrite Forall_forall in Hb. apply Hb in Hin. unfold probe_key in Hin. simpl in Hin. congruence.
Qed.

Lemma key_to_ref_at T h t k v id kvs mA mB s1 s2 st off : InvAt T h t -> h <= MAX_DEPTH ->
  reach t id kvs mA mB s1 s2 st -> kvs !! off = Some (k, v) ->
  key_to_ref T (probe_key k) = Ok (Some (st, id, off)).
Proof.
  intros HI Hh R Ho. pose proof (home_at _ _ _ _ _ _ _ _ _ _ _ _ _ HI R Ho) as Hm.
  destruct Hm as [_ Hst FA FB (D1 & D2 & D3) Ef Esq EA EB El Hsz Hsk].
  pose proof (fuel_inv rl ri SYNC T h t HI) as Hfuel.
  unfold key_to_ref. rewrite (inv_root _ _ _ _ _ _ HI), D2 by (done || simpl; lia).
  assert (forall f st0, key_to_ref_loop f (t_store T) (NLeaf id) (probe_key k) st0 = Ok (Some (st0, id, off))) as Hkr.
  { intros f st0. destruct f; simpl; unfold get_leaf; rewrite El, obind_Ok, (locate_at _ _ k v) by (done || by apply Hsk); by rewrite obind_Ok. }
  by rewrite Hkr, app_nil_r.
Qed.

Section Search.
Context {Q : Type} {SO : SearchOps K V A Q}.

Lemma get_aug_at T h t k v id kvs mA mB s1 s2 st off q : InvAt T h t ->
  reach t id kvs mA mB s1 s2 st -> kvs !! off = Some (k, v) ->
  get_ref_by_augmentation T q = Ok (Some (st, id, off)) ->
  get_by_augmentation T q = Ok (Some (k, v)).
Proof.
  intros HI R Ho E. unfold get_by_augmentation. rewrite E, obind_Ok. unfold get_leaf.
  rewrite (inv_leaf _ _ _ _ _ _ _ _ _ _ HI (proj1 (reach_seq _ _ _ _ _ _ _ _ R))), obind_Ok.
  by rewrite (leaf_data_at_mk _ _ _ _ (k, v)).
Qed.

Lemma remove_aug_at T h t k v id kvs mA mB s1 s2 st off q : InvAt T h t -> h <= MAX_DEPTH ->
  reach t id kvs mA mB s1 s2 st -> kvs !! off = Some (k, v) ->
  get_ref_by_augmentation T q = Ok (Some (st, id, off)) ->
  remove_by_augmentation T q = remove_impl T (probe_key k).
Proof.
  intros HI Hh R Ho E. unfold remove_by_augmentation, remove_impl. rewrite E, !obind_Ok.
  by rewrite (key_to_ref_at _ _ _ _ _ _ _ _ _ _ _ _ _ HI Hh R Ho), obind_Ok.
Qed.

Lemma get_mut_aug_at T h t k v id kvs mA mB s1 s2 st off q f : 1 <= rl -> InvAt T h t ->
  reach t id kvs mA mB s1 s2 st -> kvs !! off = Some (k, v) ->
  get_ref_by_augmentation T q = Ok (Some (st, id, off)) ->
  exists r T', get_mut T (probe_key k) f = Ok (r, T') /\
    get_mut_by_augmentation T q f = Ok (Some v, with_cache T' (cached (t_store T))).
Proof.
  intros Hrl1 HI R Ho E. pose proof (home_at _ _ _ _ _ _ _ _ _ _ _ _ _ HI R Ho) as Hm.
  destruct (get_mut_home rl ri SYNC Hrl1 T h t _ f _ _ _ _ _ _ _ ord_true HI (probe_key_ok k) Hm) as (c & ->).
  eexists _, _. split; [done|]. unfold get_mut_by_augmentation. rewrite E, obind_Ok. unfold get_leaf.
  rewrite (inv_leaf _ _ _ _ _ _ _ _ _ _ HI (proj1 (reach_seq _ _ _ _ _ _ _ _ R))), obind_Ok.
  rewrite (leaf_value_at_mut_mk _ _ _ _ k v) by done. rewrite obind_Ok.
  rewrite (spec_update_at f kvs off k v); [done| |done].
  apply ascending_emark. by apply Hm.
Qed.
End Search.
End Ref.
End RefProof.
