(** Consequences of the invariant: sizes, height bound, sortedness of edited
    traversals. *)
From stdpp Require Import list sorting.
From Verif Require Import Base Slots BinSearch LeafNode InnerNode Store Tree Remove
  SlotLemmas NodeLemmas Spec Order Logical Descent InsertProof.

Section InvLemmas.
Context {K V A : Type} {KO : KeyOps K} {PF : Profile} {OL : OrdLaws K} {AO : AugOps K V A}.
Notation tr := (tr K V).
Notation mark := (K * option V)%type.
Notation seg := (nat * list (K * V))%type.
Context (rl ri : nat) (SYNC : Prop).
Notation shape := (shape rl ri).
Notation nshape := (nshape rl ri).
Notation irep := (irep SYNC).

(** ** Sizes of leaves *)
Lemma shape_segs b h (t : tr) : shape b h t -> Forall (fun s => length s.2 <= 64) (leaf_seq t).
Proof.
  revert b t. induction h as [|h IH]; intros b [id kvs|id ks ch]; simpl; try done.
  - intros [_ H]. constructor; [done|constructor].
  - intros (_ & _ & Hc). apply Forall_concat, Forall_map, Forall_forall. intros c Hin.
    destruct (chs_elem _ _ _ _ Hc Hin) as [H|H]; by eapply IH.
Qed.
Lemma nshape_segs m b h (t : tr) : nshape m b h t -> Forall (fun s => length s.2 <= 64) (leaf_seq t).
Proof.
  destruct h as [|h], t as [id kvs|id ks ch]; simpl; try done.
  - intros [_ H]. constructor; [done|constructor].
  - intros (_ & _ & Hc). apply Forall_concat, Forall_map, Forall_forall. intros c Hin.
    destruct (chs_elem _ _ _ _ Hc Hin) as [H|H]; by eapply shape_segs.
Qed.

Lemma lrep_lvok (ls : list (option (leaf K V))) pre segs post : lrep ls (pre ++ segs ++ post) ->
  Forall (fun s => length s.2 <= 64) segs -> Forall (lvok ls) segs.
Proof.
  intros [H _ _] Hf. rewrite Forall_forall in Hf |- *. intros [id kvs] Hin.
  pose proof (Hf _ Hin) as Hl. apply elem_of_list_split in Hin as (x & y & ->).
  rewrite <- app_assoc, app_assoc in H. simpl in H. rewrite app_comm_cons in H.
  apply linked_lookup in H. eexists _, _. split; [exact H|done].
Qed.
Lemma lrep_lvok' (ls : list (option (leaf K V))) segs : lrep ls segs ->
  Forall (fun s => length s.2 <= 64) segs -> Forall (lvok ls) segs.
Proof.
  intros H. apply (lrep_lvok ls [] segs []). by rewrite app_nil_r.
Qed.

(** ** Height *)
Lemma flat_cons_length c (ch : list tr) : length (concat (map flat (c :: ch))) = length (flat c) + length (concat (map flat ch)).
Proof. simpl. by rewrite app_length. Qed.

Lemma strict_size h (t : tr) : shape false h t -> (16 * 17 ^ N.of_nat h <= N.of_nat (length (flat t)))%N.
Proof.
  revert t. induction h as [|h IH]; intros [id kvs|id ks ch]; cbn [Logical.shape]; try done.
  - intros [H _]. unfold flat. simpl. rewrite app_nil_r. lia.
  - intros ([H1 H2] & H3 & Hc). rewrite flat_node.
    assert (Forall (fun c => 16 * 17 ^ N.of_nat h <= N.of_nat (length (flat c)))%N ch) as Hf.
    { apply Forall_forall. intros c Hin. apply IH. by destruct (chs_elem _ _ _ _ Hc Hin). }
    assert (N.of_nat (length ch) * (16 * 17 ^ N.of_nat h) <= N.of_nat (length (concat (map flat ch))))%N as Hs.
    { clear H3 Hc. induction Hf as [|c ch Hcf Hf IHf]; [simpl; lia|].
      rewrite flat_cons_length. cbn [length]. rewrite !Nat2N.inj_add, Nat2N.inj_succ. lia. }
    rewrite Nat2N.inj_succ, N.pow_succ_r'.
    assert (17 <= N.of_nat (length ch))%N as Hl by lia.
    transitivity (N.of_nat (length ch) * (16 * 17 ^ N.of_nat h))%N; [|done].
    replace (16 * (17 * 17 ^ N.of_nat h))%N with (17 * (16 * 17 ^ N.of_nat h))%N by lia.
    by apply N.mul_le_mono_r.
Qed.

Lemma root_size h (t : tr) : nshape 1 true (S h) t -> (16 * 17 ^ N.of_nat h <= N.of_nat (length (flat t)))%N.
Proof.
  destruct t as [|id ks ch]; [done|]. cbn [Logical.nshape]. intros ([H1 H2] & H3 & Hc).
  destruct ch as [|c [|c' ch]]; simpl in H3; try lia.
  destruct Hc as [Hc _]. apply strict_size in Hc. rewrite flat_node, flat_cons_length. lia.
Qed.

Lemma height_bound h (t : tr) : nshape (rmin h) true h t -> (N.of_nat (length (flat t)) < 2 ^ 64)%N ->
  h <= MAX_DEPTH.
Proof.
  intros H Hl. destruct h as [|h]; [unfold MAX_DEPTH; lia|].
  apply root_size in H. destruct (decide (S h <= MAX_DEPTH)) as [|Hn]; [done|exfalso].
  assert (15 <= N.of_nat h)%N as Hh by (unfold MAX_DEPTH in Hn; lia).
  assert (17 ^ 15 <= 17 ^ N.of_nat h)%N as Hp by (apply N.pow_le_mono_r; lia).
  assert (2 ^ 64 <= 16 * 17 ^ 15)%N as Hb by (vm_compute; discriminate). lia.
Qed.

(** ** Sortedness of edited traversals *)
Lemma mleft_elems p (l : list mark) : Forall (mleft p) l -> Forall (fun x => p x.1 = Lt) (elems l).
Proof.
  intros H. apply Forall_forall. intros [k v] Hin. apply elem_of_elems in Hin.
  rewrite Forall_forall in H. by apply H in Hin.
Qed.
Lemma mright_elems p (l : list mark) : Forall (mright p) l -> Forall (fun x => p x.1 = Gt) (elems l).
Proof.
  intros H. apply Forall_forall. intros [k v] Hin. apply elem_of_elems in Hin.
  rewrite Forall_forall in H. by apply H in Hin.
Qed.

Lemma ltm_some_r (m : mark) k v v' : ltm m (k, Some v) -> ltm m (k, Some v').
Proof. unfold ltm. simpl. destruct (kcmp _ _); naive_solver. Qed.
Lemma ltm_some_l (m : mark) k v v' : ltm (k, Some v) m -> ltm (k, Some v') m.
Proof. unfold ltm. simpl. destruct (kcmp _ _); naive_solver. Qed.

Lemma elem_of_spec_insert k v (l : list (K * V)) k' v' : (k', v') ∈ spec_insert k v l ->
  (exists w, (k', w) ∈ l) \/ k' = k.
Proof.
  induction l as [|[k0 v0] l IH]; simpl.
  - intros H. apply elem_of_list_singleton in H. injection H as -> ->. by right.
  - destruct (kcmp k0 k) eqn:E; rewrite !elem_of_cons.
    + intros [H|H]; [injection H as -> ->; left; exists v0; by left|left; exists v'; by right].
    + intros [H|H]; [injection H as -> ->; left; exists v0; by left|].
      destruct (IH H) as [[w Hw]|Hw]; [left; exists w; by right|by right].
    + intros [H|[H|H]]; [injection H as -> ->; by right|injection H as -> ->; left; exists v0; by left|left; exists v'; by right].
Qed.

Lemma spec_insert_ascending k v (l : list (K * V)) : ascending l -> ascending (spec_insert k v l).
Proof.
  unfold ascending. induction 1 as [|[k0 v0] l Hs IH Hf]; simpl.
  - repeat constructor.
  - destruct (kcmp k0 k) eqn:E.
    + constructor; [done|]. eapply Forall_impl; [done|]. done.
    + constructor; [done|]. apply Forall_forall. intros [k1 v1] Hin. simpl.
      apply elem_of_spec_insert in Hin as [[w Hw]|Hw]; [|by subst].
      rewrite Forall_forall in Hf. by apply Hf in Hw.
    + constructor.
      * constructor; done.
      * apply kcmp_gt_lt in E. constructor; [done|]. eapply Forall_impl; [done|]. simpl.
        intros [k1 v1] H1. simpl in *. by eapply ord_trans.
Qed.

Lemma sortedm_emark (l : list (K * V)) : ascending l -> sortedm (map emark l).
Proof.
  unfold ascending. induction 1 as [|[k0 v0] l Hs IH Hf]; simpl; [constructor|].
  apply sortedm_cons. split; [done|]. rewrite Forall_map. eapply Forall_impl; [done|].
  intros [k1 v1]. simpl. unfold ltm. simpl. by intros ->.
Qed.
Lemma ascending_emark (l : list (K * V)) : sortedm (map emark l) -> ascending l.
Proof. intros H. apply sortedm_elems in H. by rewrite elems_emark in H. Qed.

Lemma sortedm_spec_insert k v (mA mB : list mark) kvs :
  sortedm (mA ++ map emark kvs ++ mB) ->
  Forall (mleft (probe_key k)) mA -> Forall (mright (probe_key k)) mB ->
  sortedm (mA ++ map emark (spec_insert k v kvs) ++ mB).
Proof.
  intros H FA FB. apply sortedm_app in H as (H1 & H2 & H3). apply sortedm_app in H2 as (H4 & H5 & H6).
  rewrite Forall_forall in FA, FB.
  assert (forall a, a ∈ mA -> ltm a (k, Some v)) as HA.
  { intros [ka [va|]] Ha; apply FA in Ha; unfold mleft, probe_key in Ha; unfold ltm; simpl in *.
    - by rewrite Ha.
    - destruct (kcmp ka k); done. }
  assert (forall b, b ∈ mB -> ltm (k, Some v) b) as HB.
  { intros [kb vb] Hb; apply FB in Hb. unfold mright, probe_key in Hb. unfold ltm. simpl in *.
    apply kcmp_gt_lt in Hb. by rewrite Hb. }
  apply sortedm_app. split_and!; [done| |].
  - apply sortedm_app. split_and!; [|done|].
    + apply sortedm_emark, spec_insert_ascending. by apply ascending_emark.
    + intros x y Hx Hy. apply elem_of_list_fmap in Hx as ([k1 v1] & -> & Hx). unfold emark. simpl.
      apply elem_of_spec_insert in Hx as [[w Hw]|Hw].
      * eapply ltm_some_l. apply H6; [|done]. apply elem_of_list_fmap. by exists (k1, w).
      * subst. eapply ltm_some_l. by apply HB.
  - intros x y Hx Hy. apply elem_of_app in Hy as [Hy|Hy].
    + apply elem_of_list_fmap in Hy as ([k1 v1] & -> & Hy). unfold emark. simpl.
      apply elem_of_spec_insert in Hy as [[w Hw]|Hw].
      * eapply ltm_some_r. apply H3; [done|]. apply elem_of_app. left. apply elem_of_list_fmap. by exists (k1, w).
      * subst. eapply ltm_some_r. by apply HA.
    + apply H3; [done|]. apply elem_of_app. by right.
Qed.

(** A separator equal to the key to its right may be added behind an entry. *)
Lemma sortedm_add_sep (mA mB : list mark) l k0 v0 r : l <> [] ->
  sortedm (mA ++ map emark (l ++ (k0, v0) :: r) ++ mB) ->
  sortedm (mA ++ (map emark l ++ (k0, None) :: map emark ((k0, v0) :: r)) ++ mB).
Proof.
  intros Hl H. rewrite map_app in H.
  replace (mA ++ (map emark l ++ map emark ((k0, v0) :: r)) ++ mB)
    with ((mA ++ map emark l) ++ (k0, Some v0) :: (map emark r ++ mB)) in H by (by rewrite <- !app_assoc).
  replace (mA ++ (map emark l ++ (k0, None) :: map emark ((k0, v0) :: r)) ++ mB)
    with ((mA ++ map emark l) ++ (k0, None) :: (k0, Some v0) :: (map emark r ++ mB)) by (by rewrite <- !app_assoc).
  apply sortedm_app in H as (H1 & H2 & H3). apply sortedm_app. split_and!; [done| |].
  - apply sortedm_cons. split; [done|]. apply sortedm_cons in H2 as [H2 H4]. constructor.
    + unfold ltm. simpl. by rewrite ord_refl.
    + eapply Forall_impl; [done|]. intros [k1 v1]. unfold ltm. simpl. destruct (kcmp k0 k1); naive_solver.
  - intros x y Hx Hy. apply elem_of_cons in Hy as [->|Hy]; [|by apply H3].
    assert (kcmp x.1 k0 = Lt) as Hlt.
    { assert (forall e, e ∈ map emark l -> kcmp e.1 k0 = Lt) as He.
      { intros e He. assert (ltm e (k0, Some v0)) as Hlt.
        { apply H3; [apply elem_of_app; by right|constructor]. }
        apply elem_of_list_fmap in He as ([k1 v1] & -> & _). unfold ltm in Hlt. simpl in *.
        destruct (kcmp k1 k0); [naive_solver|done|done]. }
      apply elem_of_app in Hx as [Hx|Hx]; [|by apply He].
      destruct l as [|[k1 v1] l]; [done|].
      assert (ltm x (k1, Some v1)) as Hx1.
      { apply sortedm_app in H1 as (_ & _ & H1). apply H1; [done|]. constructor. }
      specialize (He (k1, Some v1) ltac:(constructor)). simpl in He.
      unfold ltm in Hx1. simpl in Hx1. destruct (kcmp x.1 k1) eqn:E; [|by eapply ord_trans|done].
      rewrite (ord_eq _ _ _ E). done. }
    unfold ltm. simpl. by rewrite Hlt.
Qed.

End InvLemmas.
