(** Augmentations: summaries stay in sync, searches and ranks follow them. *)
From stdpp Require Import list sorting.
From Verif Require Import Base Slots BinSearch LeafNode InnerNode Store Tree Remove Augment
  SlotLemmas NodeLemmas Spec AugSpec Order Logical Descent InsertProof InvLemmas InsertTop
  RemoveLeaf RemoveInner RemoveProof RemoveTop Lookup.

Section AugProof.
Context {K V A : Type} {KO : KeyOps K} {PF : Profile} {OL : OrdLaws K} {AO : AugOps K V A}.
Notation tr := (tr K V).
Notation tree := (tree K V A).
Notation store := (store K V A).

Lemma asc_app (a b : list (K * V)) : ascending (a ++ b) -> ascending a /\ ascending b.
Proof.
  unfold ascending. induction a as [|x a IH]; intros H; [split; [constructor|done]|].
  inversion H as [|? ? H1 H2]; subst. destruct (IH H1). split; [|done]. constructor; [done|].
  by apply Forall_app in H2 as [? _].
Qed.

Lemma asc_concat (ls : list (list (K * V))) l : ascending (concat ls) -> l ∈ ls -> ascending l.
Proof.
  intros H Hin. apply elem_of_list_split in Hin as (a & b & ->). rewrite concat_app in H. apply asc_app in H as [_ H].
  simpl in H. by apply asc_app in H as [H _].
Qed.

Lemma shape_flat_nonnil rl ri b h (t : tr) : 1 <= rl -> shape rl ri b h t -> flat t <> [].
Proof.
  intros Hrl Hs. pose proof (shape_nonempty rl ri Hrl b h t Hs) as Hn. unfold flat.
  assert (leaf_seq t <> []) as Hseq.
  { clear Hn. revert b t Hs. induction h as [|h IH]; intros b [id kvs|id ks ch]; simpl; try done.
    intros (_ & Hl & Hc). destruct ch as [|c ch]; [done|]. simpl.
    apply (chs_app _ _ [] c ch) in Hc as (_ & Hc & _). apply IH in Hc. destruct (leaf_seq c); done. }
  destruct (leaf_seq t) as [|[id kvs] segs]; [done|]. apply Forall_cons in Hn as [Hn _]. simpl in *. by destruct kvs.
Qed.

Section Sync.
Context (rl ri : nat) (Hrl1 : 1 <= rl) (R : A -> list (K * V) -> Prop) (HR : summary_ok R).

Lemma aug_of_summary b h (t : tr) : shape rl ri b h t -> ascending (flat t) -> R (aug_of t) (flat t).
Proof.
  revert b t. induction h as [|h IH]; intros b [id kvs|id ks ch] Hs Ha; try done.
  - rewrite flat_leaf in *. apply (so_leaf R HR); [done|]. apply Hs.
  - destruct Hs as (_ & Hl & Hc). rewrite flat_node in *.
    change (aug_of (TNode id ks ch)) with (from_inner (V:=V) ks (map aug_of ch)).
    apply (so_inner R HR); [done| | |].
    + by destruct ch.
    + apply Forall_map, Forall_forall. intros c Hin. destruct (chs_elem _ _ _ _ Hc Hin) as [Hx|Hx];
        by eapply (shape_flat_nonnil rl ri).
    + apply Forall2_fmap, Forall_Forall2_diag, Forall_forall. intros c Hin.
      assert (ascending (flat c)) as Hac.
      { eapply asc_concat; [exact Ha|]. apply elem_of_list_fmap. by exists c. }
      destruct (chs_elem _ _ _ _ Hc Hin) as [Hx|Hx]; by eapply IH.
Qed.

Lemma root_summary T h t : InvAt (A:=A) rl ri True T h t -> R (t_aug T) (flat t).
Proof.
  intros HI. destruct (inv_aug _ _ _ _ _ _ HI I) as [->|[-> ->]]; [|apply HR].
  assert (ascending (flat t)) as Ha.
  { rewrite <- elems_trav. by apply sortedm_elems, (inv_sorted _ _ _ _ _ _ HI). }
  pose proof (inv_shape _ _ _ _ _ _ HI) as Hs. destruct h as [|h], t as [id kvs|id ks ch]; try done.
  - rewrite flat_leaf in *. apply (so_leaf R HR); [done|]. apply Hs.
  - destruct Hs as (_ & Hl & Hc). rewrite flat_node in *.
    change (aug_of (TNode id ks ch)) with (from_inner (V:=V) ks (map aug_of ch)).
    apply (so_inner R HR); [done| | |].
    + by destruct ch.
    + apply Forall_map, Forall_forall. intros c Hin. destruct (chs_elem _ _ _ _ Hc Hin) as [Hx|Hx];
        by eapply (shape_flat_nonnil rl ri).
    + apply Forall2_fmap, Forall_Forall2_diag, Forall_forall. intros c Hin.
      assert (ascending (flat c)) as Hac.
      { eapply asc_concat; [exact Ha|]. apply elem_of_list_fmap. by exists c. }
      destruct (chs_elem _ _ _ _ Hc Hin) as [Hx|Hx]; by eapply aug_of_summary.
Qed.
End Sync.

(** ** Searching by augmentation *)
Section Search.
Context {Q : Type} {SO : SearchOps K V A Q} (P : tr -> Prop) (S : tr -> Q -> option nat).
Context (HSleaf : forall id kvs q, P (TLeaf id kvs) ->
  locate_in_leaf (A:=A) q (keysof kvs) (valsof kvs) = S (TLeaf id kvs) q /\ (forall i, S (TLeaf id kvs) q = Some i -> i < length kvs)).
Context (HSinner : forall id ks ch q, P (TNode id ks ch) ->
  match locate_in_inner (V:=V) q ks (map aug_of ch) with
  | None => S (TNode id ks ch) q = None
  | Some (i, q') => exists cl c cr, ch = cl ++ c :: cr /\ i = length cl /\
      S (TNode id ks ch) q = Nat.add (length (concat (map flat cl))) <$> S c q'
  end).
Context (HSchild : forall id ks ch, P (TNode id ks ch) -> Forall P ch).
Context (rl ri : nat).

Lemma ref_by_aug_ok (s : store) h m b (t : tr) q fuel st0 :
  irep True (inners s) h t -> nshape rl ri m b h t -> Forall (lvok (leaves s)) (leaf_seq t) -> P t ->
  h <= fuel -> h + length st0 <= MAX_DEPTH ->
  match S t q with
  | None => ref_by_aug_loop fuel s (nid t) q st0 = Ok None
  | Some j => exists id kvs mA mB s1 s2 st off, reach t id kvs mA mB s1 s2 st /\
      ref_by_aug_loop fuel s (nid t) q st0 = Ok (Some (st ++ st0, id, off)) /\
      off < length kvs /\ j = length (elems mA) + off
  end.
Proof.
  revert m b t q fuel st0. induction h as [|h IH]; intros m b [id kvs|id ks ch] q fuel st0 Hi Hn Hl HP Hf Hd; try done.
  - apply Forall_cons in Hl as [(p & n & El & Hz) _]. simpl in El, Hz.
    destruct (HSleaf id kvs q HP) as [E Hb].
    assert (ref_by_aug_loop fuel s (nid (TLeaf id kvs)) q st0 =
      match S (TLeaf id kvs) q with None => Ok None | Some slot => Ok (Some (st0, id, slot)) end) as Er.
    { destruct fuel; cbn [ref_by_aug_loop nid]; unfold get_leaf; rewrite El, obind_Ok, leaf_keys_mk by done;
        rewrite obind_Ok, leaf_values_mk by done; rewrite obind_Ok, E; done. }
    destruct (S (TLeaf id kvs) q) as [j|] eqn:Es; [|done]. exists id, kvs, [], [], [], [], [], j. split_and!; [constructor|done|auto|done].
  - destruct fuel as [|fuel]; [lia|]. destruct Hi as [Hnr Hi]. destruct Hn as (Hk & Hc & Hs).
    destruct (node_rep_fits _ _ _ _ _ Hnr (proj2 Hk) Hc) as (aus & E & Hfit & Ha). specialize (Ha I). subst aus.
    cbn [ref_by_aug_loop nid]. unfold get_inner. rewrite E, obind_Ok, inner_keys_mk by done.
    rewrite obind_Ok, inner_augmentations_mk by done. rewrite obind_Ok.
    specialize (HSinner id ks ch q HP).
    destruct (locate_in_inner (V:=V) q ks (map aug_of ch)) as [[i q']|]; [|by rewrite HSinner].
    destruct HSinner as (cl & c & cr & -> & -> & ->).
    assert (exists kl kr, ks = kl ++ kr /\ length kl = length cl /\ length kr = length cr) as (kl & kr & -> & L1 & L2).
    { exists (take (length cl) ks), (drop (length cl) ks). rewrite take_drop, take_length, drop_length.
      rewrite app_length in Hc. simpl in Hc. split_and!; [done|lia|lia]. }
    rewrite inner_child_id_mk with (c := nid c); [|by rewrite map_app; simpl; apply lookup_middle'; rewrite map_length].
    rewrite obind_Ok. unfold stack_push. rewrite decide_True by lia. rewrite obind_Ok.
    apply HSchild in HP. apply Forall_app in HP as [_ HP]. apply Forall_cons in HP as [HP _].
    apply Forall_app in Hi as [_ Hi]. apply Forall_cons in Hi as [Hi _].
    apply chs_app in Hs as (_ & Hs & _).
    assert (Forall (lvok (leaves s)) (leaf_seq c)) as Hlc.
    { change (leaf_seq (TNode id (kl ++ kr) (cl ++ c :: cr))) with (concat (map leaf_seq (cl ++ c :: cr))) in Hl.
      rewrite map_app, concat_app in Hl. apply Forall_app in Hl as [_ Hl]. simpl in Hl. by apply Forall_app in Hl as [Hl _]. }
    specialize (IH _ _ c q' fuel ((id, length cl, nid c) :: st0) Hi (proj1 (shape_nshape _ _ _ _ _) Hs) Hlc HP ltac:(lia) ltac:(simpl; lia)).
    destruct (S c q') as [j|]; simpl; [|done].
    destruct IH as (id' & kvs & mA & mB & s1 & s2 & st & off & Rc & Er & Ho & Hj).
    exists id', kvs, (zl cl kl ++ mA), (mB ++ zr kr cr). eexists _, _, (st ++ [(id, length cl, nid c)]), off.
    split; [by constructor|]. rewrite Er. split; [by rewrite <- app_assoc|]. split; [done|].
    rewrite elems_app, elems_zl by done. rewrite app_length. lia.
Qed.

Lemma ref_by_aug_tr T h t q : InvAt (A:=A) rl ri True T h t -> P t ->
  h <= MAX_DEPTH ->
  match S t q with
  | None => get_ref_by_augmentation T q = Ok None
  | Some j => exists id kvs mA mB s1 s2 st off, reach t id kvs mA mB s1 s2 st /\
      get_ref_by_augmentation T q = Ok (Some (st, id, off)) /\
      off < length kvs /\ j = length (elems mA) + off
  end.
Proof.
  intros HI HP Hh. unfold get_ref_by_augmentation. rewrite (inv_root _ _ _ _ _ _ HI).
  pose proof (ref_by_aug_ok (t_store T) h _ _ t q (descend_fuel (t_store T)) [] (inv_irep _ _ _ _ _ _ HI) (inv_shape _ _ _ _ _ _ HI)) as H.
  assert (Forall (lvok (leaves (t_store T))) (leaf_seq t)) as Hlv.
  { apply lrep_lvok'; [apply HI|]. eapply nshape_segs. apply HI. }
  specialize (H Hlv HP (fuel_inv rl ri True T h t HI) ltac:(simpl; lia)).
  destruct (S t q); [|done]. destruct H as (id & kvs & mA & mB & s1 & s2 & st & off & X1 & X2 & X3).
  rewrite app_nil_r in X2. by eexists id, kvs, mA, mB, s1, s2, st, off.
Qed.
End Search.

(** The same when the place depends on the entries only. *)
Lemma ref_by_aug_inv {Q} {SO : SearchOps K V A Q} (P : tr -> Prop) (S : list (K * V) -> Q -> option nat)
    (HSleaf : forall id kvs q, P (TLeaf id kvs) ->
      locate_in_leaf (A:=A) q (keysof kvs) (valsof kvs) = S kvs q /\ (forall i, S kvs q = Some i -> i < length kvs))
    (HSinner : forall id ks ch q, P (TNode id ks ch) ->
      match locate_in_inner (V:=V) q ks (map aug_of ch) with
      | None => S (concat (map flat ch)) q = None
      | Some (i, q') => exists cl c cr, ch = cl ++ c :: cr /\ i = length cl /\
          S (concat (map flat ch)) q = Nat.add (length (concat (map flat cl))) <$> S (flat c) q'
      end)
    (HSchild : forall id ks ch, P (TNode id ks ch) -> Forall P ch) (rl ri : nat) T h t q :
  InvAt (A:=A) rl ri True T h t -> P t -> h <= MAX_DEPTH ->
  match S (flat t) q with
  | None => get_ref_by_augmentation T q = Ok None
  | Some j => exists id kvs mA mB s1 s2 st off, reach t id kvs mA mB s1 s2 st /\
      get_ref_by_augmentation T q = Ok (Some (st, id, off)) /\
      off < length kvs /\ j = length (elems mA) + off
  end.
Proof.
  refine (ref_by_aug_tr P (fun t => S (flat t)) _ _ HSchild rl ri T h t q).
  - intros id kvs q'. rewrite flat_leaf. apply HSleaf.
  - intros id ks ch q'. rewrite flat_node. apply HSinner.
Qed.

(** ** Ranking by augmentation *)
Section Rank.
Context {R : Type} {RO : RankOps K V A R} (rl ri : nat).

(** The ranks fold the left siblings of every node of the search path. *)
Definition fold_path (k : K) (rank : R) (path : list (list tr)) : R :=
  foldl (fun rank cl => fold_inner (V:=V) k rank (map aug_of cl)) rank path.

(** Where the search for [k] goes: the left siblings at every level, and the leaf. *)
Definition goes (k : K) (ks : list K) : nat := length (List.filter (fun s => match kcmp s k with Gt => false | _ => true end) ks).
Fixpoint left_path (k : K) (t : tr) : list (list tr) :=
  match t with
  | TLeaf _ _ => []
  | TNode _ ks ch => take (goes k ks) ch :: nth (goes k ks) (map (left_path k) ch) []
  end.
Fixpoint leaf_at (k : K) (t : tr) : list (K * V) :=
  match t with
  | TLeaf _ kvs => kvs
  | TNode _ ks ch => nth (goes k ks) (map (leaf_at k) ch) []
  end.
Lemma goes_app k kl kr : Forall (fun s => kcmp s k <> Gt) kl -> Forall (fun s => kcmp s k = Gt) kr -> goes k (kl ++ kr) = length kl.
Proof.
  intros H1 H2. unfold goes. rewrite List.filter_app, app_length.
  assert (length (List.filter (fun s => match kcmp s k with Gt => false | _ => true end) kl) = length kl) as ->.
  { induction H1 as [|x l Hx _ IH]; [done|]. simpl. by destruct (kcmp x k); simpl; rewrite ?IH. }
  assert (List.filter (fun s => match kcmp s k with Gt => false | _ => true end) kr = []) as ->.
  { induction H2 as [|x l Hx _ IH]; [done|]. simpl. by rewrite Hx. }
  simpl. lia.
Qed.
Lemma zl_keys (P : K * option V -> Prop) cl kl : length cl = length kl -> Forall P (zl cl kl) -> Forall (fun s => P (s, None)) kl.
Proof.
  revert kl. induction cl as [|c cl IH]; intros [|s kl]; try done. intros [= Hl] H. cbn [zl zip_with concat] in H.
  unfold zl in H. simpl in H. apply Forall_app in H as [H1 H2]. apply Forall_app in H1 as [_ H1]. apply Forall_cons in H1 as [H1 _].
  constructor; [done|]. by apply IH.
Qed.
Lemma zr_keys (P : K * option V -> Prop) kr cr : length kr = length cr -> Forall P (zr kr cr) -> Forall (fun s => P (s, None)) kr.
Proof.
  revert cr. induction kr as [|s kr IH]; intros [|c cr]; try done. intros [= Hl] H.
  unfold zr in H. simpl in H. apply Forall_cons in H as [H1 H2]. apply Forall_app in H2 as [_ H2].
  constructor; [done|]. by apply (IH cr).
Qed.

Lemma rank_loop_ok (s : store) k h m b (t : tr) :
  irep True (inners s) h t -> nshape rl ri m b h t -> sortedm (trav t) -> Forall (lvok (leaves s)) (leaf_seq t) ->
  exists path id kvs mA mB s1 s2 st r, reach t id kvs mA mB s1 s2 st /\
    Forall (mleft (probe_key k)) mA /\ Forall (mright (probe_key k)) mB /\
    length path = h /\ concat (map flat (concat path)) = elems mA /\
    Forall (fun c => exists b' h', h' < h /\ shape rl ri b' h' c) (concat path) /\
    match r with
    | ROk i => exists a k' v b, kvs = a ++ (k', v) :: b /\ i = length a /\
        Forall (fun x => kcmp x.1 k = Lt) a /\ kcmp k' k = Eq /\ Forall (fun x => kcmp x.1 k = Gt) b
    | RErr i => exists a b, kvs = a ++ b /\ i = length a /\
        Forall (fun x => kcmp x.1 k = Lt) a /\ Forall (fun x => kcmp x.1 k = Gt) b
    end /\
    (path = left_path k t /\ kvs = leaf_at k t) /\
    forall fuel rank, h <= fuel ->
      rank_loop fuel s (nid t) k rank = Ok (fold_leaf (V:=V) (A:=A) k (fold_path k rank path) r (keysof kvs)).
Proof.
  revert m b t. induction h as [|h IH]; intros m b [id kvs|id ks ch] Hi Hn Hso Hl; try done.
  - apply Forall_cons in Hl as [(p & n & El & Hz) _]. simpl in El, Hz.
    destruct (leaf_locate_ok (probe_key k) kvs p n (probe_key_ok k) Hz Hso) as (r & Er & Hr).
    exists [], id, kvs, [], [], [], [], [], r. split; [constructor|]. split_and!; try done; try constructor.
    intros fuel rank _. destruct fuel; cbn [rank_loop nid]; unfold get_leaf; rewrite El, obind_Ok, Er, obind_Ok, leaf_keys_mk by done; done.
  - destruct (locate_step rl ri True (probe_key k) (inners s) h id ks ch b m (fun _ => probe_key_ok k) Hi Hn (fun _ => Hso))
      as (n & kl & kr & cl & c & cr & E & Eloc & -> & -> & L1 & L2 & F1 & F2 & Hic & Hsc & Hsoc).
    specialize (F1 I). specialize (F2 I). specialize (Hsoc I).
    assert (Forall (lvok (leaves s)) (leaf_seq c)) as Hlc.
    { change (leaf_seq (TNode id (kl ++ kr) (cl ++ c :: cr))) with (concat (map leaf_seq (cl ++ c :: cr))) in Hl.
      rewrite map_app, concat_app in Hl. apply Forall_app in Hl as [_ Hl]. simpl in Hl. by apply Forall_app in Hl as [Hl _]. }
    destruct (IH _ _ c Hic (proj1 (shape_nshape _ _ _ _ _) Hsc) Hsoc Hlc)
      as (path & id' & kvs & mA & mB & s1 & s2 & st & r & Rc & FA & FB & Hp & Ep & Fp & Hr & [Hpath Hleaf] & Er).
    exists (cl :: path), id', kvs, (zl cl kl ++ mA), (mB ++ zr kr cr). eexists _, _, _, r.
    split; [by constructor|]. split; [by apply Forall_app|]. split; [by apply Forall_app|].
    split; [by simpl; rewrite Hp|]. split.
    { simpl. rewrite map_app, concat_app, Ep, elems_app, elems_zl by done. done. }
    split.
    { simpl. apply Forall_app. split.
      - destruct Hn as (_ & _ & Hs). apply Forall_forall. intros x Hx.
        destruct (chs_elem _ _ _ x Hs) as [Hx'|Hx']; [apply elem_of_app; by left| |]; eexists _, h; (split; [lia|done]).
      - eapply Forall_impl; [exact Fp|]. intros x (b' & h' & ? & ?). exists b', h'. split; [lia|done]. }
    split; [done|]. split.
    { apply zl_keys in F1; [|done]. apply zr_keys in F2; [|done].
      cbn [left_path leaf_at]. rewrite (goes_app k kl kr F1 F2), L1, take_app.
      rewrite !map_app, !app_nth2 by (rewrite map_length; lia). rewrite !map_length, !Nat.sub_diag. cbn [map nth].
      by rewrite <- Hpath, <- Hleaf. }
    intros fuel rank Hf. destruct fuel as [|fuel]; [lia|].
    destruct Hi as [Hnr _]. destruct Hn as (Hk & Hc & _).
    destruct (node_rep_fits _ _ _ _ _ Hnr (proj2 Hk) Hc) as (aus & E' & Hfit & Ha). specialize (Ha I). subst aus.
    rewrite E in E'. injection E' as ->.
    cbn [rank_loop nid]. unfold get_inner. rewrite E, obind_Ok, Eloc, obind_Ok, inner_augmentations_mk by done.
    rewrite obind_Ok, decide_True by (rewrite map_length, app_length; lia).
    rewrite map_app, take_app_alt by (by rewrite map_length). apply Er. lia.
Qed.

Lemma rank_path T h t k : InvAt (A:=A) rl ri True T h t ->
  exists path id kvs mA mB s1 s2 st r, reach t id kvs mA mB s1 s2 st /\
    Forall (fun x => kcmp x.1 k = Lt) (elems mA) /\ Forall (fun x => kcmp x.1 k = Gt) (elems mB) /\
    length path = h /\ concat (map flat (concat path)) = elems mA /\
    Forall (fun c => exists b' h', h' < h /\ shape rl ri b' h' c) (concat path) /\
    match r with
    | ROk i => exists a k' v b, kvs = a ++ (k', v) :: b /\ i = length a /\
        Forall (fun x => kcmp x.1 k = Lt) a /\ kcmp k' k = Eq /\ Forall (fun x => kcmp x.1 k = Gt) b
    | RErr i => exists a b, kvs = a ++ b /\ i = length a /\
        Forall (fun x => kcmp x.1 k = Lt) a /\ Forall (fun x => kcmp x.1 k = Gt) b
    end /\
    (path = left_path k t /\ kvs = leaf_at k t) /\
    rank_by_augmentation T k = Ok (fold_leaf (V:=V) (A:=A) k
      (fold_path k (initial_value (K:=K) (V:=V) (A:=A)) path) r (keysof kvs)).
Proof.
  intros HI. assert (Forall (lvok (leaves (t_store T))) (leaf_seq t)) as Hlv.
  { apply lrep_lvok'; [apply HI|]. eapply nshape_segs. apply HI. }
  destruct (rank_loop_ok (t_store T) k h _ _ t (inv_irep _ _ _ _ _ _ HI) (inv_shape _ _ _ _ _ _ HI)
    (inv_sorted _ _ _ _ _ _ HI I) Hlv) as (path & id & kvs & mA & mB & s1 & s2 & st & r & Rc & FA & FB & Hp & Ep & Fp & Hr & Hpl & Er).
  exists path, id, kvs, mA, mB, s1, s2, st, r. split_and!; try done; [by apply mleft_elems in FA|by apply mright_elems in FB|apply Hpl|apply Hpl|].
  unfold rank_by_augmentation. rewrite (inv_root _ _ _ _ _ _ HI). apply Er, (fuel_inv rl ri True T h t HI).
Qed.
Lemma rank_inv T h t k : InvAt (A:=A) rl ri True T h t ->
  exists path id kvs mA mB s1 s2 st r, reach t id kvs mA mB s1 s2 st /\
    Forall (fun x => kcmp x.1 k = Lt) (elems mA) /\ Forall (fun x => kcmp x.1 k = Gt) (elems mB) /\
    length path = h /\ concat (map flat (concat path)) = elems mA /\
    Forall (fun c => exists b' h', h' < h /\ shape rl ri b' h' c) (concat path) /\
    match r with
    | ROk i => exists a k' v b, kvs = a ++ (k', v) :: b /\ i = length a /\
        Forall (fun x => kcmp x.1 k = Lt) a /\ kcmp k' k = Eq /\ Forall (fun x => kcmp x.1 k = Gt) b
    | RErr i => exists a b, kvs = a ++ b /\ i = length a /\
        Forall (fun x => kcmp x.1 k = Lt) a /\ Forall (fun x => kcmp x.1 k = Gt) b
    end /\
    rank_by_augmentation T k = Ok (fold_leaf (V:=V) (A:=A) k
      (fold_path k (initial_value (K:=K) (V:=V) (A:=A)) path) r (keysof kvs)).
Proof.
  intros HI. destruct (rank_path T h t k HI) as (path & id & kvs & mA & mB & s1 & s2 & st & r & H).
  exists path, id, kvs, mA, mB, s1, s2, st, r. tauto.
Qed.
End Rank.
End AugProof.
