(** [insert] preserves the invariant and meets its specification; so does
    [new]. *)
From stdpp Require Import list sorting.
From Verif Require Import Base Slots BinSearch LeafNode InnerNode Store Tree Remove InsertParts
  SlotLemmas NodeLemmas Spec AnySpec Order Logical Descent InsertProof InvLemmas.

Section InsertTop.
Context {K V A : Type} {KO : KeyOps K} {PF : Profile} {OM : OrdMode} {OI : OrdIf K} {AO : AugOps K V A}.
Notation tr := (tr K V).
Context (rl ri : nat) (SYNC : Prop).
Context (Hrl : rl <= 16) (Hri : ri <= 16).
Notation InvAt := (InvAt (A:=A) rl ri SYNC).

Lemma new_inv : InvAt tree_new 0 (TLeaf 0 []).
Proof.
  split; simpl; try done.
  - split; simpl.
    + done.
    + constructor; [|constructor]. by intros ?%elem_of_nil.
    + intros i l H. destruct i as [|i]; simpl in *; [constructor|]. by destruct i.
  - constructor.
  - intros _. constructor.
  - lia.
  - intros _. by right.
Qed.

Lemma fuel_inv T h t : InvAt T h t -> h <= descend_fuel (t_store T).
Proof.
  clear Hrl Hri. intros []. unfold descend_fuel. pose proof (fuel_ok _ _ _ _ _ _ _ _ inv_shape inv_irep inv_nodup). lia.
Qed.

Lemma put_any_length (k : K) (v : V) l o l' : put_any k v l o l' ->
  length l' = length l + (match o with Some _ => 0 | None => 1 end).
Proof.
  clear. destruct o; simpl.
  - intros (a & k' & b & -> & _ & ->). rewrite !app_length. simpl. lia.
  - intros (a & b & -> & ->). rewrite !app_length. simpl. lia.
Qed.
Lemma put_any_mid (k : K) (v : V) a l o l' c : put_any k v l o l' -> put_any k v (a ++ l ++ c) o (a ++ l' ++ c).
Proof.
  clear. destruct o; simpl.
  - intros (x & k' & y & -> & E & ->). exists (a ++ x), k', (y ++ c). rewrite <- !app_assoc. done.
  - intros (x & y & -> & ->). exists (a ++ x), (y ++ c). rewrite <- !app_assoc. done.
Qed.

(** From the leaf that took the entry up to the root. *)
Lemma insert_core T h t id kvs mA mB s1 s2 st s' r M L kvs' : InvAt T h t -> (N.of_nat (t_len T) < 2 ^ 64)%N ->
  reach t id kvs mA mB s1 s2 st -> inners s' = inners (t_store T) ->
  length kvs' = length kvs + (match up_val r with Some _ => 0 | None => 1 end) ->
  leaf_res id kvs' r M L (length (leaves (t_store T))) -> lrep (leaves s') (s1 ++ L ++ s2) ->
  (ORD -> sortedm (mA ++ M ++ mB)) ->
  exists rf sf T' h' t', insert_ascend st s' r = Ok (rf, sf) /\
    insert_top T rf sf = Ok (up_val r, T') /\ InvAt T' h' t' /\
    flat t' = elems mA ++ kvs' ++ elems mB /\
    h <= h' /\ (forall i, stray (inners (t_store T')) t' i <-> stray (inners (t_store T)) t i).
Proof.
  intros HI Hlen R His Hl1 Hres Hlr' Hsorted. destruct HI as [Hroot Hir Hlr Hnd Hso Hsh Hln Hau Hgb].
  rewrite Hln in Hlen. pose proof (height_bound _ _ _ _ Hsh Hlen) as Hh.
  set (s := t_store T) in *.
  pose proof (reach_trav _ _ _ _ _ _ _ _ R) as Etrav.
  pose proof (reach_seq _ _ _ _ _ _ _ _ R) as (Eseq & EA & EB).
  pose proof (nshape_segs _ _ _ _ _ _ Hsh) as Hsz. rewrite Eseq in Hsz.
  apply Forall_app in Hsz as [Hsz1 Hsz2]. apply Forall_cons in Hsz2 as [Hsz2 Hsz3]. simpl in Hsz2.
  assert (Forall (lvok (leaves s')) (s1 ++ L ++ s2)) as Hlv.
  { apply lrep_lvok'; [done|]. rewrite !Forall_app. split_and!; [done| |done].
    destruct r as [rv| |rk rc0]; simpl in Hres.
    - destruct Hres as (_ & -> & ?). constructor; [done|constructor].
    - destruct Hres as (_ & -> & ?). constructor; [done|constructor].
    - destruct Hres as (? & ? & ? & ? & _ & _ & _ & ? & ? & _ & ->).
      constructor; [simpl; lia|]. constructor; [simpl in *; lia|constructor]. }
  rewrite <- His in Hir, Hgb.
  destruct (insert_ascend_ok rl ri SYNC Hrl Hri t id kvs mA mB s1 s2 st R h (rmin h) true s' r
    kvs' M L (length (leaves s)) Hir Hsh Hnd ltac:(lia) Hres Hlv)
    as (sf & rf & Hasc & Hlsf & Hkind & Hle & Hfr & Hpost).
  assert (insert_ascend st s' r = Ok (rf, sf)) as Easc.
  { specialize (Hasc []). by rewrite app_nil_r in Hasc. }
  clear Hasc.
  assert (elems (mA ++ M ++ mB) = elems mA ++ kvs' ++ elems mB) as Hflat.
  { rewrite !elems_app. do 2 f_equal.
    destruct r as [rv| |rk rc0]; simpl in Hres.
    - destruct Hres as (-> & _). apply elems_emark.
    - destruct Hres as (-> & _). apply elems_emark.
    - destruct Hres as (l & k0 & v0 & r' & _ & -> & E & ? & ? & -> & _). rewrite E.
      rewrite elems_app, elems_emark. simpl. by rewrite elems_emark. }
  assert (flat t = elems mA ++ kvs ++ elems mB) as Eft.
  { by rewrite <- elems_trav, Etrav, !elems_app, elems_emark. }
  assert (length (elems mA ++ kvs' ++ elems mB) = length (flat t) + (match up_val r with Some _ => 0 | None => 1 end)) as Hlf.
  { rewrite Eft, !app_length, Hl1. lia. }
  exists rf, sf.
  assert (forall is' (t' : tr), (forall i, i < length (inners sf) -> is' !! i = inners sf !! i) ->
      (forall i, i ∈ inner_ids t' <-> i ∈ inner_ids t \/ length (inners s') <= i < length is') ->
      length (inners sf) <= length is' ->
      forall i, stray is' t' i <-> stray (inners s) t i) as Hstray.
  { intros is' t' Hfr' Hid Hle' i. unfold stray. rewrite Hid. rewrite <- His. split.
    - intros [[n Hn] Hi]. pose proof (lookup_lt_Some _ _ _ Hn). split; [|tauto]. exists n.
      rewrite <- Hfr by (lia || tauto). rewrite <- Hfr'; [done|]. lia.
    - intros [[n Hn] Hi]. pose proof (lookup_lt_Some _ _ _ Hn). split; [|intros [?|?]; [done|lia]]. exists n.
      rewrite Hfr' by lia. rewrite Hfr by (lia || done). done. }
  (* the result *)
  assert (forall t', nid t' = nid t -> irep SYNC (inners sf) h t' -> nshape rl ri (rmin h) true h t' ->
      trav t' = mA ++ M ++ mB -> leaf_seq t' = s1 ++ L ++ s2 ->
      inner_ids t' ≡ₚ inner_ids t ++ fresh (length (inners s')) (length (inners sf)) ->
      forall len st, len = length (flat t') -> exists a, new_augmentation_for_id sf (t_root T) = Ok a /\
        InvAt (mkTree (t_root T) a len sf st) h t') as Hcase.
  { intros t' En Hir' Hsh' Etr Esq Eid len stt Elen.
    destruct (new_aug_ok rl ri SYNC sf h t' _ _ Hir' Hsh') as (a & Ea & Ha).
    { rewrite Esq, Hlsf. done. }
    exists a. rewrite Hroot, <- En. split; [done|].
    split; simpl; try done.
    - by rewrite Hlsf, Esq.
    - rewrite Eid. apply NoDup_fresh; [done|]. intros i Hi. by eapply irep_lt.
    - by rewrite Etr.
    - intros HS. left. by apply Ha.
    - intros i n Hi. rewrite Eid, elem_of_app, elem_of_fresh.
      destruct (decide (i < length (inners s'))) as [Hlt|Hge].
      + destruct (decide (i ∈ inner_ids t)) as [|Hni]; [by left; left|].
        rewrite Hfr in Hi by done. destruct (Hgb _ _ Hi) as [?|?]; [done|by right].
      + left. right. apply lookup_lt_Some in Hi. lia. }
  unfold insert_top.
  destruct rf as [v'| |key rc].
  - assert (r = IrUpdated v') as ->.
    { destruct r; simpl in Hkind; [congruence|congruence|]. destruct Hkind as [?|(? & ? & ?)]; congruence. }
    destruct Hpost as (t' & En & Hir' & Hsh' & Etr & Esq & Eid).
    assert (flat t' = elems mA ++ kvs' ++ elems mB) as Eflat by (by rewrite <- elems_trav, Etr).
    simpl in Hlf.
    destruct (Hcase t' En Hir' Hsh' Etr Esq Eid (t_len T) (t_st T)) as (a & Ea & HI').
    { rewrite Eflat, Hlf. lia. }
    rewrite Ea, obind_Ok. eexists _, h, t'. rewrite Eflat. split_and!; try done.
    apply Hstray; [done| |done]. intros i. by rewrite Eid, elem_of_app, elem_of_fresh.
  - assert (up_val r = None) as Hup' by (destruct r; cbn in Hkind |- *; congruence).
    rewrite Hup' in Hlf |- *.
    destruct Hpost as (t' & En & Hir' & Hsh' & Etr & Esq & Eid).
    assert (flat t' = elems mA ++ kvs' ++ elems mB) as Eflat by (by rewrite <- elems_trav, Etr).
    destruct (Hcase t' En Hir' Hsh' Etr Esq Eid (t_len T + 1) (t_st T)) as (a & Ea & HI').
    { rewrite Eflat, Hlf. lia. }
    rewrite Ea, obind_Ok. eexists _, h, t'. rewrite Eflat. split_and!; try done.
    apply Hstray; [done| |done]. intros i. by rewrite Eid, elem_of_app, elem_of_fresh.
  - assert (up_val r = None) as Hup' by (destruct r; cbn in Hkind |- *; congruence).
    rewrite Hup' in Hlf |- *.
    destruct Hpost as (t1 & t2 & En & -> & Hir1 & Hir2 & Hsh1 & Hsh2 & Etr & Esq & Eid).
    assert (Forall (lvok (leaves sf)) (leaf_seq t1 ++ leaf_seq t2)) as Hlv2 by (rewrite Esq, Hlsf; done).
    apply Forall_app in Hlv2 as [Hlv1 Hlv2].
    destruct (new_aug_ok rl ri SYNC sf h t1 _ _ Hir1 (proj1 (shape_nshape _ _ _ _ _) Hsh1) Hlv1) as (a1 & Ea1 & Ha1).
    destruct (new_aug_ok rl ri SYNC sf h t2 _ _ Hir2 (proj1 (shape_nshape _ _ _ _ _) Hsh2) Hlv2) as (a2 & Ea2 & Ha2).
    rewrite Hroot, <- En, Ea1, obind_Ok, Ea2, obind_Ok.
    assert (inner_fits [key] [nid t1; nid t2] [a1; a2]) as Hfit by (split_and!; simpl; unfold INNER_N; lia).
    rewrite inner_new_from_iter_mk by done. rewrite obind_Ok, inner_keys_mk by done.
    rewrite obind_Ok, inner_augmentations_mk by done. rewrite obind_Ok. cbn [add_inner].
    set (rid := length (inners sf)). set (t' := TNode rid [key] [t1; t2]).
    assert (trav t' = mA ++ M ++ mB) as Etr'.
    { unfold t'. simpl. rewrite app_nil_r. done. }
    assert (flat t' = elems mA ++ kvs' ++ elems mB) as Eflat by (by rewrite <- elems_trav, Etr').
    assert (forall i, i ∈ inner_ids t1 ++ inner_ids t2 -> i < rid) as Hlts.
    { intros i [Hi|Hi]%elem_of_app; [by apply (irep_lt SYNC _ h t1)|by apply (irep_lt SYNC _ h t2)]. }
    unfold add_inner. eexists _, (S h), t'. rewrite Eflat. split_and!; [done|done| |done|lia|].
    2: { apply Hstray.
      - intros i Hi. simpl. by rewrite lookup_app_l.
      - intros i. simpl. rewrite app_nil_r, elem_of_cons, Eid, elem_of_app, elem_of_fresh, app_length.
        simpl. unfold rid. split; [intros [->|[?|?]]; auto; right; lia|]. intros [?|?]; [auto|]. destruct (decide (i = length (inners sf))); [auto|]. right; right; lia.
      - simpl. rewrite app_length. lia. }
    split; simpl; try done.
    + split.
      * exists [a1; a2]. split_and!; [|done|].
        -- rewrite lookup_app_r by done. by rewrite Nat.sub_diag.
        -- intros HS. simpl. by rewrite (Ha1 HS), (Ha2 HS).
      * assert (forall c, irep SYNC (inners sf) h c -> irep SYNC (inners sf ++ [Some (mk_inner [key] [nid t1; nid t2] [a1; a2])]) h c) as Hfrm.
        { intros c Hc. eapply irep_frame; [done|]. intros i Hi. apply lookup_app_l. by eapply irep_lt. }
        constructor; [by apply Hfrm|]. constructor; [by apply Hfrm|constructor].
    + rewrite app_nil_r, Esq, Hlsf. done.
    + rewrite app_nil_r. constructor.
      * intros Hi%Hlts. lia.
      * rewrite Eid. apply NoDup_fresh; [done|]. intros i Hi. by eapply irep_lt.
    + rewrite app_nil_r, Etr. done.
    + split_and!; [lia|lia|done|done|done].
    + rewrite Eflat, Hlf. lia.
    + intros HS. left. by rewrite (Ha1 HS), (Ha2 HS).
    + rewrite app_nil_r. intros i n Hi. rewrite elem_of_cons, Eid, elem_of_app, elem_of_fresh.
      destruct (decide (i = rid)) as [->|Hne]; [by left; left|].
      assert (i < rid) as Hir3.
      { apply lookup_lt_Some in Hi. rewrite app_length in Hi. simpl in Hi. fold rid in Hi. lia. }
      rewrite lookup_app_l in Hi by done.
      destruct (decide (i < length (inners s'))) as [Hlt|Hge].
      * destruct (decide (i ∈ inner_ids t)) as [|Hni]; [by left; right; left|].
        rewrite Hfr in Hi by done. destruct (Hgb _ _ Hi) as [?|?]; [done|by right].
      * left. right. right. unfold rid in Hir3. lia.
Qed.

Lemma insert_any T h t k v : InvAt T h t -> (N.of_nat (t_len T) < 2 ^ 64)%N ->
  exists o T' h' t', insert T k v = Ok (o, T') /\ InvAt T' h' t' /\
    put_any k v (flat t) o (flat t') /\
    (ORD -> o = spec_get (probe_key k) (flat t) /\ flat t' = spec_insert k v (flat t)) /\
    h <= h' /\ (forall i, stray (inners (t_store T')) t' i <-> stray (inners (t_store T)) t i).
Proof.
  intros HI Hlen. pose proof (fuel_inv _ _ _ HI) as Hfuel. pose proof HI as [Hroot Hir Hlr Hnd Hso Hsh Hln Hau Hgb].
  assert (h <= MAX_DEPTH) as Hh by (rewrite Hln in Hlen; by eapply height_bound).
  destruct (descend_nshape rl ri SYNC (probe_key k) (t_store T) h t true _ (fun HO => probe_key_ok (OL:=ord_if HO) k) Hir Hsh Hso)
    as (id & kvs & mA & mB & s1 & s2 & st & R & Hst & FA & FB & D1 & D2 & D3).
  pose proof (reach_trav _ _ _ _ _ _ _ _ R) as Etrav.
  pose proof (reach_seq _ _ _ _ _ _ _ _ R) as (Eseq & EA & EB).
  rewrite Etrav in Hso. rewrite Eseq in Hlr.
  pose proof (nshape_segs _ _ _ _ _ _ Hsh) as Hsz. rewrite Eseq in Hsz.
  apply Forall_app in Hsz as [Hsz1 Hsz2]. apply Forall_cons in Hsz2 as [Hsz2 Hsz3]. simpl in Hsz2.
  assert (ORD -> sortedm (map emark kvs)) as Hsk.
  { intros HO. specialize (Hso HO). apply sortedm_app in Hso as (_ & Hso & _). by apply sortedm_app in Hso as (Hso & _). }
  destruct (insert_leaf_ok (t_store T) s1 id kvs s2 k v Hlr Hsz2 Hsk)
    as (r & s' & M & L & kvs' & Eins & His & Hput & Hspec & Hres & Hlr').
  assert (ORD -> sortedm (mA ++ M ++ mB)) as Hsorted.
  { intros HO. pose proof (ord_if HO).
    pose proof (sortedm_spec_insert k v mA mB kvs (Hso HO) (FA HO) (FB HO)) as Hsp.
    rewrite <- (proj2 (Hspec HO)) in Hsp.
    destruct r as [rv| |rk rc0]; simpl in Hres.
    - by destruct Hres as (-> & _).
    - by destruct Hres as (-> & _).
    - destruct Hres as (l & k0 & v0 & r' & _ & -> & E & ? & ? & -> & _). rewrite E in Hsp.
      apply sortedm_add_sep; [|done]. intros ->. simpl in *. lia. }
  destruct (insert_core T h t id kvs mA mB s1 s2 st s' r M L kvs' HI Hlen R His (put_any_length _ _ _ _ _ Hput) Hres Hlr' Hsorted)
    as (rf & sf & T' & h' & t' & Easc & Etop & HI' & Ef' & Hhh & Hstr).
  assert (flat t = elems mA ++ kvs ++ elems mB) as Eft.
  { by rewrite <- elems_trav, Etrav, !elems_app, elems_emark. }
  exists (up_val r), T', h', t'. split.
  { change (insert T k v) with (let! '(r, s) := descend_insert (t_store T) (t_root T) k v in insert_top T r s).
    unfold descend_insert. rewrite Hroot. destruct t as [lid lkvs|nid' ks ch]; cbn [nid].
    - inversion R; subst. simpl in Easc. injection Easc as <- <-. by rewrite Eins, obind_Ok.
    - unfold insert_inner. rewrite (D3 nid' k) by (done || simpl; lia). rewrite obind_Ok, app_nil_r, Eins, obind_Ok.
      by rewrite Easc, obind_Ok. }
  split; [done|]. rewrite Ef', Eft. split; [by apply put_any_mid|]. split; [|done].
  intros HO. destruct (Hspec HO) as [-> ->]. specialize (FA HO). specialize (FB HO).
  apply mleft_elems in FA. apply mright_elems in FB. split.
  - symmetry. apply spec_get_mid; [eapply Forall_impl; [exact FA|]|eapply Forall_impl; [exact FB|]]; simpl; congruence.
  - by rewrite spec_insert_mid, spec_insert_right.
Qed.

Lemma insert_ok T h t k v : ORD -> InvAt T h t -> (N.of_nat (t_len T) < 2 ^ 64)%N ->
  exists T' h' t', insert T k v = Ok (spec_get (probe_key k) (flat t), T') /\
    InvAt T' h' t' /\ flat t' = spec_insert k v (flat t).
Proof.
  intros HO HI Hlen. destruct (insert_any T h t k v HI Hlen) as (o & T' & h' & t' & E & HI' & _ & Hs & _).
  destruct (Hs HO) as [-> Ef]. by exists T', h', t'.
Qed.

End InsertTop.
