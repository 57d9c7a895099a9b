(** What [bulk_load] and [from_iter] load: the last pair of every key. *)
From stdpp Require Import list sorting.
From Verif Require Import Base Slots BinSearch LeafNode InnerNode Store Tree Remove Iterators Observe
  BulkLoad History SlotLemmas NodeLemmas Spec Order Logical Descent InsertProof InvLemmas InsertTop
  RemoveLeaf RemoveInner RemoveProof RemoveTop Lookup IterProof IntoProof BulkProof.

Section LoadSpec.
Context {K V : Type} {KO : KeyOps K} {PF : Profile} {OL : OrdLaws K}.
Notation kv := (K * V)%type.

(** The last pair of [data] whose key equals [k]. *)
Fixpoint last_for (k : K) (data : list kv) : option kv :=
  match data with
  | [] => None
  | x :: data' =>
      match last_for k data' with
      | Some y => Some y
      | None => match kcmp (fst x) k with Eq => Some x | _ => None end
      end
  end.

Lemma kcmp_flip (x y : K) : kcmp y x = CompOpp (kcmp x y).
Proof. apply ord_sym. Qed.
Lemma kcmp_eq_sym (x y : K) : kcmp x y = Eq -> kcmp y x = Eq.
Proof. intros H. by rewrite kcmp_flip, H. Qed.
Lemma kcmp_eq_r (x y z : K) : kcmp x y = Eq -> kcmp z x = kcmp z y.
Proof. intros H. rewrite (kcmp_flip x z), (kcmp_flip y z). by rewrite (ord_eq x y z H). Qed.
Lemma kcmp_lt_gt (x y : K) : kcmp x y = Lt <-> kcmp y x = Gt.
Proof. rewrite (kcmp_flip x y). by destruct (kcmp x y). Qed.

Lemma last_for_app k a b : last_for k (a ++ b) = match last_for k b with Some y => Some y | None => last_for k a end.
Proof.
  induction a as [|x a IH]; simpl; [by destruct (last_for k b)|]. rewrite IH. by destruct (last_for k b).
Qed.
Lemma last_for_None k a : (forall x, x ∈ a -> kcmp x.1 k <> Eq) -> last_for k a = None.
Proof.
  induction a as [|x a IH]; simpl; [done|]. intros H. rewrite IH by (intros y Hy; apply H; by constructor).
  specialize (H x). destruct (kcmp x.1 k); try done. exfalso. apply H; [by constructor|done].
Qed.
Lemma last_for_Some k a x : last_for k a = Some x -> x ∈ a /\ kcmp x.1 k = Eq.
Proof.
  induction a as [|y a IH]; simpl; [done|]. destruct (last_for k a) as [z|].
  - intros [= ->]. destruct IH; [done|]. split; [by constructor|done].
  - destruct (kcmp y.1 k) eqn:E; try done. intros [= ->]. split; [by constructor|done].
Qed.

Lemma ascending_ext (a b : list kv) : ascending a -> ascending b -> (forall x, x ∈ a <-> x ∈ b) -> a = b.
Proof.
  unfold ascending. revert b. induction a as [|x a IH]; intros b Ha Hb H.
  - destruct b as [|y b]; [done|]. assert (y ∈ @nil kv) as E by (apply H; constructor). by apply elem_of_nil in E.
  - destruct b as [|y b]. { assert (x ∈ @nil kv) as E by (apply H; constructor). by apply elem_of_nil in E. }
    inversion Ha as [|? ? Ha1 Ha2]; subst. inversion Hb as [|? ? Hb1 Hb2]; subst.
    rewrite Forall_forall in Ha2, Hb2.
    assert (x = y) as ->.
    { assert (x ∈ y :: b) as Hx by (apply H; constructor). assert (y ∈ x :: a) as Hy by (apply H; constructor).
      apply elem_of_cons in Hx as [?|Hx]; [done|]. apply elem_of_cons in Hy as [?|Hy]; [done|].
      specialize (Hb2 _ Hx). specialize (Ha2 _ Hy). apply kcmp_lt_gt in Hb2. congruence. }
    f_equal. apply IH; [done|done|]. intros z. specialize (H z). rewrite !elem_of_cons in H. split; intros Hz.
    + destruct H as [H _]. destruct (H (or_intror Hz)) as [->|]; [|done]. specialize (Ha2 _ Hz). by rewrite ord_refl in Ha2.
    + destruct H as [_ H]. destruct (H (or_intror Hz)) as [->|]; [|done]. specialize (Hb2 _ Hz). by rewrite ord_refl in Hb2.
Qed.

Lemma spec_put_elem (y : kv) l : ascending l -> ascending (spec_put y l) /\
  (forall x, x ∈ spec_put y l <-> x = y \/ (x ∈ l /\ kcmp x.1 y.1 <> Eq)).
Proof.
  unfold ascending. induction 1 as [|z l Hl IH Hz]; simpl.
  - split; [repeat constructor|]. intros x. rewrite elem_of_list_singleton, elem_of_nil. tauto.
  - destruct IH as [IH1 IH2]. rewrite Forall_forall in Hz. destruct (kcmp z.1 y.1) eqn:E.
    + split.
      * constructor; [done|]. rewrite Forall_forall. intros x Hx. rewrite <- (ord_eq z.1 y.1 x.1 E). by apply Hz.
      * intros x. rewrite !elem_of_cons. split.
        { intros [->|Hx]; [by left|]. right. split; [by right|]. specialize (Hz _ Hx).
          rewrite (ord_eq z.1 y.1 x.1 E) in Hz. apply kcmp_lt_gt in Hz. congruence. }
        { intros [->|[[->|Hx] Hne]]; [by left|done|by right]. }
    + split.
      * constructor; [done|]. rewrite Forall_forall. intros x [->|[Hx _]]%IH2; [done|]. by apply Hz.
      * intros x. rewrite !elem_of_cons, IH2. split.
        { intros [->|[->|[Hx Hne]]]; [|by left|]; right; split; try done; [by left|congruence|by right]. }
        { intros [->|[[->|Hx] Hne]]; [by right; left|by left|]. right. right. done. }
    + assert (forall x, x ∈ l -> kcmp y.1 x.1 = Lt) as Hyx.
      { intros x Hx. eapply ord_trans; [|by apply Hz]. by apply kcmp_lt_gt. }
      split.
      * constructor; [by constructor; [|apply Forall_forall]|]. constructor; [by apply kcmp_lt_gt|].
        apply Forall_forall. done.
      * intros x. rewrite !elem_of_cons. split.
        { intros [->|[->|Hx]]; [by left| |]; right; split; auto; [congruence|].
          specialize (Hyx _ Hx). apply kcmp_lt_gt in Hyx. congruence. }
        { intros [->|[Hx Hne]]; [by left|by right]. }
Qed.

Lemma spec_load_elem data : ascending (spec_load data) /\
  (forall x, x ∈ spec_load data <-> last_for x.1 data = Some x).
Proof.
  induction data as [|y data [IH1 IH2]] using rev_ind.
  - split; [constructor|]. intros x. unfold spec_load. simpl. rewrite elem_of_nil. done.
  - unfold spec_load. rewrite foldl_app. cbn [foldl]. fold (spec_load data).
    destruct (spec_put_elem y _ IH1) as [P1 P2]. split; [done|]. intros x. rewrite P2, IH2, last_for_app. simpl.
    rewrite (kcmp_flip x.1 y.1). destruct (kcmp x.1 y.1) eqn:E; simpl.
    + split; [intros [->|[_ ?]]; done|]. intros [= ->]. by left.
    + split; [intros [->|[? _]]; [by rewrite ord_refl in E|done]|]. intros H. right. done.
    + split; [intros [->|[? _]]; [by rewrite ord_refl in E|done]|]. intros H. right. done.
Qed.

(** ** [DeDupKeepLast] on sorted data *)
Lemma dedup_elem c data : key_sorted (c :: data) ->
  ascending (dedup_keep_last (Some c) data) /\
  (forall x, x ∈ dedup_keep_last (Some c) data <-> last_for x.1 (c :: data) = Some x) /\
  (forall x, x ∈ dedup_keep_last (Some c) data -> kcmp c.1 x.1 <> Gt).
Proof.
  unfold key_sorted, ascending. revert c. induction data as [|y data IH]; intros c H.
  - simpl. split_and!; [repeat constructor| |].
    + intros x. rewrite elem_of_list_singleton. split; [intros ->; by rewrite ord_refl|].
      destruct (kcmp c.1 x.1); by intros [= ->].
    + intros x ->%elem_of_list_singleton. by rewrite ord_refl.
  - inversion H as [|? ? H1 H2]; subst. destruct (IH y H1) as (I1 & I2 & I3). cbn [dedup_keep_last]. unfold same_key.
    pose proof H2 as H2'. apply Forall_cons in H2' as [Hcy H2']. destruct (kcmp c.1 y.1) eqn:E; [| |done].
    + split_and!; [done| |].
      * intros x. rewrite I2. change (last_for x.1 (c :: y :: data)) with
          (match last_for x.1 (y :: data) with Some z => Some z | None => match kcmp c.1 x.1 with Eq => Some c | _ => None end end).
        destruct (last_for x.1 (y :: data)) eqn:E2; [done|]. split; [done|]. rewrite (ord_eq _ _ x.1 E).
        simpl in E2. destruct (last_for x.1 data); [done|]. by destruct (kcmp y.1 x.1).
      * intros x Hx. rewrite (ord_eq _ _ x.1 E). by apply I3.
    + assert (forall z, z ∈ y :: data -> kcmp c.1 z.1 = Lt) as Hlt.
      { intros z Hz. apply elem_of_cons in Hz as [->|Hz]; [done|].
        inversion H1 as [|? ? _ H4]; subst. rewrite Forall_forall in H4. specialize (H4 _ Hz).
        destruct (kcmp y.1 z.1) eqn:E3; [|by eapply ord_trans|done]. by rewrite <- (kcmp_eq_r y.1 z.1 c.1 E3). }
      assert (forall x, x ∈ dedup_keep_last (Some y) data -> kcmp c.1 x.1 = Lt) as Hlt2.
      { intros x Hx. apply I2, last_for_Some in Hx as [Hx _]. by apply Hlt. }
      split_and!.
      * constructor; [done|]. by apply Forall_forall.
      * intros x. rewrite elem_of_cons, I2. change (last_for x.1 (c :: y :: data)) with
          (match last_for x.1 (y :: data) with Some z => Some z | None => match kcmp c.1 x.1 with Eq => Some c | _ => None end end).
        split.
        { intros [ -> | -> ]; [|done]. rewrite last_for_None, ord_refl; [done|].
          intros z Hz E2. specialize (Hlt _ Hz). rewrite (kcmp_flip z.1 c.1), E2 in Hlt. done. }
        { destruct (last_for x.1 (y :: data)); [by intros [= ->]; right|]. destruct (kcmp c.1 x.1); try done.
          intros [= ->]. by left. }
      * intros x. rewrite elem_of_cons. intros [->|Hx]; [by rewrite ord_refl|]. by rewrite Hlt2.
Qed.

Lemma dedup_load (data : list kv) : key_sorted data -> dedup_keep_last None data = spec_load data.
Proof.
  intros H. destruct data as [|c data]; [done|]. cbn [dedup_keep_last].
  destruct (dedup_elem c data H) as (D1 & D2 & _). destruct (spec_load_elem (c :: data)) as [L1 L2].
  apply ascending_ext; [done..|]. intros x. by rewrite D2, L2.
Qed.

(** ** Stable sorting *)
Lemma sort_insert_elem (x : kv) l y : y ∈ sort_insert x l <-> y = x \/ y ∈ l.
Proof.
  induction l as [|z l IH]; simpl; [rewrite elem_of_list_singleton, elem_of_nil; tauto|].
  destruct (kcmp z.1 x.1); rewrite ?elem_of_cons, ?IH, ?elem_of_cons; tauto.
Qed.
Lemma sort_insert_sorted (x : kv) l : key_sorted l -> key_sorted (sort_insert x l).
Proof.
  unfold key_sorted. induction 1 as [|z l Hl IH Hz]; simpl; [repeat constructor|].
  assert (forall y, kcmp z.1 x.1 <> Lt -> y ∈ l -> kcmp x.1 y.1 <> Gt) as Hc.
  { intros y Hzx Hy. rewrite Forall_forall in Hz. specialize (Hz _ Hy).
    destruct (kcmp z.1 x.1) eqn:E; [|done|].
    - by rewrite <- (ord_eq _ _ y.1 E).
    - apply kcmp_lt_gt in E. destruct (kcmp z.1 y.1) eqn:E2; [|by rewrite (ord_trans _ _ _ E E2)|done].
      by rewrite <- (kcmp_eq_r _ _ x.1 E2), E. }
  destruct (kcmp z.1 x.1) eqn:E.
  - constructor; [by constructor|]. constructor; [by rewrite (kcmp_eq_sym _ _ E)|].
    apply Forall_forall. intros y Hy. by apply Hc.
  - constructor; [done|]. apply Forall_forall. intros y [->|Hy]%sort_insert_elem; [congruence|].
    rewrite Forall_forall in Hz. by apply Hz.
  - constructor; [by constructor|]. constructor; [apply kcmp_lt_gt in E; congruence|].
    apply Forall_forall. intros y Hy. by apply Hc.
Qed.
Lemma sort_by_key_sorted (l : list kv) : key_sorted (sort_by_key l).
Proof. induction l; [constructor|]. by apply sort_insert_sorted. Qed.

(** The pairs with a key equal to [k], in order. *)
Definition run_of (k : K) (l : list kv) : list kv :=
  List.filter (fun x => match kcmp (fst x) k with Eq => true | _ => false end) l.

Lemma sort_insert_run k (x : kv) l : key_sorted l -> run_of k (sort_insert x l) = run_of k (x :: l).
Proof.
  unfold key_sorted. induction 1 as [|z l Hl IH Hz]; [done|]. cbn [sort_insert].
  destruct (kcmp z.1 x.1) eqn:E; [done| |done].
  cbn [run_of List.filter] in *. unfold run_of in *. rewrite IH. cbn [List.filter].
  destruct (kcmp x.1 k) eqn:E1; try done.
  assert (kcmp z.1 k = Lt) as -> by (by rewrite <- (kcmp_eq_r _ _ z.1 E1)). done.
Qed.
Lemma sort_by_key_run k (l : list kv) : run_of k (sort_by_key l) = run_of k l.
Proof.
  induction l as [|x l IH]; [done|]. cbn [sort_by_key foldr]. rewrite sort_insert_run by apply sort_by_key_sorted.
  unfold run_of in *. cbn [List.filter]. unfold sort_by_key in IH. by rewrite IH.
Qed.

Lemma last_for_run k l : last_for k l = list.last (run_of k l).
Proof.
  induction l as [|x l IH]; [done|]. cbn [last_for run_of List.filter]. fold (run_of k l). rewrite IH.
  unfold run_of in *. destruct (kcmp x.1 k).
  - destruct (List.filter _ l) as [|y l0] eqn:E; [done|]. cbn [list.last]. destruct (list.last (y :: l0)) eqn:E2; [done|]. by apply last_None in E2.
  - by destruct (list.last _).
  - by destruct (list.last _).
Qed.

Lemma load_sort (l : list kv) : spec_load (sort_by_key l) = spec_load l.
Proof.
  destruct (spec_load_elem (sort_by_key l)) as [A1 A2]. destruct (spec_load_elem l) as [B1 B2].
  apply ascending_ext; [done..|]. intros x. by rewrite A2, B2, !last_for_run, sort_by_key_run.
Qed.

(** Any sorted list with the same runs is the one the model computes. *)
Lemma run_of_elem k x l : x ∈ run_of k l <-> x ∈ l /\ kcmp x.1 k = Eq.
Proof.
  rewrite !elem_of_list_In. unfold run_of. rewrite filter_In. destruct (kcmp x.1 k); split; try done; intros [? ?]; done.
Qed.
Lemma stable_unique (a b : list kv) : key_sorted a -> key_sorted b ->
  (forall k, run_of k a = run_of k b) -> a = b.
Proof.
  unfold key_sorted. revert b. induction a as [|x a IH]; intros b Ha Hb H.
  - destruct b as [|y b]; [done|]. specialize (H y.1). unfold run_of in H. simpl in H. by rewrite ord_refl in H.
  - destruct b as [|y b]. { specialize (H x.1). unfold run_of in H. simpl in H. by rewrite ord_refl in H. }
    inversion Ha as [|? ? Ha1 Ha2]; subst. inversion Hb as [|? ? Hb1 Hb2]; subst. rewrite Forall_forall in Ha2, Hb2.
    assert (kcmp x.1 y.1 = Eq) as Exy.
    { assert (x ∈ run_of x.1 (y :: b)) as Hx by (rewrite <- H; apply run_of_elem; split; [constructor|apply ord_refl]).
      assert (y ∈ run_of y.1 (x :: a)) as Hy by (rewrite H; apply run_of_elem; split; [constructor|apply ord_refl]).
      apply run_of_elem in Hx as [Hx _], Hy as [Hy _].
      apply elem_of_cons in Hx as [->|Hx]; [apply ord_refl|]. apply elem_of_cons in Hy as [->|Hy]; [apply ord_refl|].
      specialize (Hb2 _ Hx). specialize (Ha2 _ Hy). destruct (kcmp x.1 y.1) eqn:E; [done| |done].
      apply kcmp_lt_gt in E. done. }
    assert (x = y) as ->.
    { pose proof (H y.1) as E. unfold run_of in E. cbn [List.filter] in E. rewrite Exy, ord_refl in E. by injection E. }
    f_equal. apply IH; [done..|]. intros k. specialize (H k). unfold run_of in *. cbn [List.filter] in H.
    destruct (kcmp y.1 k); [by injection H|done|done].
Qed.

Lemma sort_by_key_unique (l l' : list kv) : key_sorted l' -> (forall k, run_of k l' = run_of k l) -> l' = sort_by_key l.
Proof.
  intros Hs Hr. apply stable_unique; [done|apply sort_by_key_sorted|]. intros k. by rewrite Hr, sort_by_key_run.
Qed.

Lemma spec_put_length (x : kv) l : length (spec_put x l) <= S (length l).
Proof. induction l as [|y l IH]; simpl; [lia|]. destruct (kcmp y.1 x.1); simpl; lia. Qed.
Lemma spec_load_length (l : list kv) : length (spec_load l) <= length l.
Proof.
  induction l as [|x l IH] using rev_ind; [done|]. unfold spec_load in *. rewrite foldl_app, app_length. simpl.
  pose proof (spec_put_length x (foldl (fun l kv => spec_put kv l) [] l)). lia.
Qed.
Lemma spec_load_nonnil (l : list kv) : l <> [] -> spec_load l <> [].
Proof.
  intros H. destruct l as [|x l _] using rev_ind; [done|]. unfold spec_load. rewrite foldl_app. simpl.
  destruct (foldl _ [] l) as [|y l']; [done|]. simpl. by destruct (kcmp _ _).
Qed.
End LoadSpec.

Section BulkTop.
Context {K V A : Type} {KO : KeyOps K} {PF : Profile} {OL : OrdLaws K} {AO : AugOps K V A}.
Notation tree := (tree K V A).

Lemma bulk_load_ok ri SYNC data : ri <= 1 -> key_sorted data -> (ri = 1 -> orphan_free (length (spec_load data))) ->
  exists (T : tree) h t, bulk_load data = Ok T /\ InvAt 1 ri SYNC T h t /\ flat t = spec_load data.
Proof.
  intros Hri Hs Ho. destruct data as [|x data].
  { exists tree_new, 0, (TLeaf 0 []). split; [done|]. split; [|done]. apply new_inv; lia. }
  destruct (bulk_items_ok (A:=A) ri SYNC Hri (spec_load (x :: data))) as (s & nodes & c & s' & root & T & h & t & E1 & E2 & E3 & HI & Hf & _).
  { intros _. apply spec_load_elem. } { by apply spec_load_nonnil. }
  { intros E. destruct (Ho E) as [E0|E0]; [|done]. pose proof (spec_load_nonnil (x :: data)) as Hn.
    destruct (spec_load (x :: data)); [|done]. exfalso. by apply Hn. }
  exists T, h, t. split; [|done]. unfold bulk_load. rewrite dedup_load by done.
  rewrite E1, obind_Ok, E2, obind_Ok. done.
Qed.

Lemma from_iter_ok ri SYNC data : ri <= 1 -> (ri = 1 -> orphan_free (length (spec_load data))) ->
  exists (T : tree) h t, from_iter data = Ok T /\ InvAt 1 ri SYNC T h t /\ flat t = spec_load data.
Proof.
  intros Hri Ho. rewrite <- load_sort in Ho |- *. apply bulk_load_ok; try done. apply sort_by_key_sorted.
Qed.
End BulkTop.
