(** Consequences of the order laws, traversal marks and binary search. *)
From stdpp Require Import list sorting.
From Verif Require Import Base BinSearch SlotLemmas Spec.

Section Order.
Context {K : Type} {KO : KeyOps K} {PF : Profile} {OL : OrdLaws K}.

Lemma kcmp_gt_lt x y : kcmp x y = Gt <-> kcmp y x = Lt.
Proof. rewrite (ord_sym x y). destruct (kcmp x y); simpl; split; congruence. Qed.
Lemma kcmp_eq_sym x y : kcmp x y = Eq -> kcmp y x = Eq.
Proof. rewrite (ord_sym x y). destruct (kcmp x y); simpl; congruence. Qed.
Lemma kcmp_eq_r x y z : kcmp x y = Eq -> kcmp z x = kcmp z y.
Proof. intros H. rewrite (ord_sym x z), (ord_sym y z). f_equal. by apply ord_eq. Qed.
Lemma kcmp_lt_irrefl x : kcmp x x <> Lt.
Proof. rewrite ord_refl. done. Qed.

Lemma probe_key_ok (k : K) : probe_ok (probe_key k).
Proof.
  unfold probe_key. split.
  - intros x y H1 H2. destruct (kcmp y k) eqn:E; [|by eapply ord_trans|done].
    rewrite <- (kcmp_eq_r y k x); done.
  - intros x y H. by apply ord_eq.
Qed.

Lemma probe_gt (p : probe K) x y : probe_ok p -> kcmp x y = Lt -> p x <> Lt -> p y = Gt.
Proof.
  intros Hp H1 H2. destruct (p y) eqn:E; [| |done];
    exfalso; apply H2; apply (probe_mono _ Hp _ y); congruence.
Qed.

(** ** Binary search *)
Definition psorted (p : probe K) (l : list K) : Prop :=
  StronglySorted (fun x y => p x = Lt \/ p y = Gt) l.

Definition bs_spec (p : probe K) (l : list K) (r : result nat nat) : Prop :=
  match r with
  | ROk i => exists a x b, l = a ++ x :: b /\ length a = i /\
      Forall (fun x => p x = Lt) a /\ p x = Eq /\ Forall (fun x => p x = Gt) b
  | RErr i => exists a b, l = a ++ b /\ length a = i /\
      Forall (fun x => p x = Lt) a /\ Forall (fun x => p x = Gt) b
  end.

Lemma psorted_split p l i x : psorted p l -> l !! i = Some x ->
  (p x <> Gt -> Forall (fun y => p y = Lt) (take i l)) /\
  (p x <> Lt -> Forall (fun y => p y = Gt) (drop (S i) l)).
Proof.
  intros Hs. revert i. induction Hs as [|y l Hs IH Hf]; intros i Hx; [done|].
  destruct i as [|i]; simpl in *.
  - injection Hx as ->. split; [constructor|]. intros Hn. rewrite drop_0.
    eapply Forall_impl; [done|]. simpl. intros z [?|?]; congruence.
  - destruct (IH i Hx) as [I1 I2]. split; [|done]. intros Hn. constructor; [|by apply I1].
    rewrite Forall_forall in Hf. destruct (Hf x) as [?|?]; [by eapply elem_of_list_lookup_2|done|congruence].
Qed.

Lemma bsearch_loop_ok fuel p l left right :
  psorted p l -> left <= right -> right <= length l -> right - left < fuel ->
  Forall (fun y => p y = Lt) (take left l) -> Forall (fun y => p y = Gt) (drop right l) ->
  exists r, bsearch_loop fuel p l left right = Ok r /\ bs_spec p l r.
Proof.
  intros Hs. revert left right. induction fuel as [|fuel IH]; intros left right H1 H2 H3 HL HR; [lia|].
  simpl. destruct (decide (left < right)) as [Hlt|Hge].
  - set (mid := left + Nat.div2 (right - left)).
    assert (left <= mid < right) as Hm.
    { unfold mid. pose proof (Nat.lt_div2 (right - left)). lia. }
    destruct (lookup_lt_is_Some_2 l mid ltac:(lia)) as [x Hx]. rewrite Hx.
    destruct (psorted_split p l mid x Hs Hx) as [S1 S2].
    destruct (p x) eqn:E.
    + eexists; split; [done|]. exists (take mid l), x, (drop (S mid) l).
      rewrite take_drop_middle by done. rewrite take_length. split_and!; [done|lia|apply S1; congruence|done|apply S2; congruence].
    + apply IH; [lia..| |done]. erewrite take_S_r by done.
      apply Forall_app; split; [apply S1; congruence|by constructor].
    + apply IH; [lia..|done|]. erewrite drop_S by done.
      constructor; [done|apply S2; congruence].
  - assert (left = right) as -> by lia. eexists; split; [done|].
    exists (take right l), (drop right l). rewrite take_drop, take_length. split_and!; auto. lia.
Qed.

Lemma binary_search_ok p l : psorted p l ->
  exists r, binary_search p l = Ok r /\ bs_spec p l r.
Proof.
  intros Hs. apply bsearch_loop_ok; [done|lia..| |].
  - constructor.
  - rewrite drop_all. constructor.
Qed.

Lemma sorted_psorted p l : probe_ok p -> StronglySorted (fun x y => kcmp x y = Lt) l -> psorted p l.
Proof.
  intros Hp. induction 1 as [|x l Hs IH Hf]; constructor; [done|].
  eapply Forall_impl; [done|]. simpl. intros y Hy.
  destruct (p x) eqn:E; [right|by left|right]; eapply probe_gt; eauto; congruence.
Qed.

(** What binary search returns on any list, sorted or not. *)
Definition bs_any (p : probe K) (l : list K) (r : result nat nat) : Prop :=
  match r with
  | ROk i => exists a x b, l = a ++ x :: b /\ length a = i /\ p x = Eq /\
      (psorted p l -> Forall (fun x => p x = Lt) a /\ Forall (fun x => p x = Gt) b)
  | RErr i => exists a b, l = a ++ b /\ length a = i /\
      (psorted p l -> Forall (fun x => p x = Lt) a /\ Forall (fun x => p x = Gt) b)
  end.

Lemma bsearch_loop_any fuel p (l : list K) left right :
  left <= right -> right <= length l -> right - left < fuel ->
  exists r, bsearch_loop fuel p l left right = Ok r /\
    match r with ROk i => exists x, l !! i = Some x /\ p x = Eq | RErr i => i <= length l end.
Proof.
  revert left right. induction fuel as [|fuel IH]; intros left right H1 H2 H3; [lia|].
  simpl. destruct (decide (left < right)) as [Hlt|Hge].
  - set (mid := left + Nat.div2 (right - left)).
    assert (left <= mid < right) as Hm.
    { unfold mid. pose proof (Nat.lt_div2 (right - left)). lia. }
    destruct (lookup_lt_is_Some_2 l mid ltac:(lia)) as [x Hx]. rewrite Hx.
    destruct (p x) eqn:E; [|apply IH; lia..]. eexists; split; [done|]. by exists x.
  - eexists; split; [done|]. simpl. lia.
Qed.

Lemma binary_search_any p l : exists r, binary_search p l = Ok r /\ bs_any p l r.
Proof.
  destruct (bsearch_loop_any (S (length l)) p l 0 (length l)) as (r & E & Hr); [lia..|].
  exists r. split; [done|]. destruct r as [i|i].
  - destruct Hr as (x & Hx & Ep). exists (take i l), x, (drop (S i) l).
    rewrite take_drop_middle by done. pose proof (lookup_lt_Some _ _ _ Hx).
    split_and!; [done|rewrite take_length; lia|done|]. intros Hs.
    destruct (psorted_split p l i x Hs Hx) as [S1 S2]. split; [apply S1|apply S2]; congruence.
  - exists (take i l), (drop i l). rewrite take_drop. split_and!; [done|rewrite take_length; lia|]. intros Hs.
    destruct (binary_search_ok p l Hs) as (r' & E' & Hr'). change (binary_search p l = Ok (RErr i)) in E.
    rewrite E in E'. injection E' as <-. destruct Hr' as (a & b & -> & <- & Fa & Fb).
    by rewrite take_app, drop_app.
Qed.

End Order.

(** The proofs about the structure of a tree do not need the order laws; those
    about the order of its keys do.  [ORD] says which is wanted: order facts are
    stated under it, the laws ([OrdIf]) only have to hold under it. *)
Class OrdMode := { ORD : Prop }.
Class OrdIf (K : Type) {KO : KeyOps K} {OM : OrdMode} : Prop := ord_if : ORD -> OrdLaws K.
Definition om_true : OrdMode := {| ORD := True |}.
Definition om_false : OrdMode := {| ORD := False |}.
Global Existing Instance om_true | 100.
Definition ord_true : ORD (OrdMode:=om_true) := I.
Global Instance ord_if_true K (KO : KeyOps K) (OL : OrdLaws K) : OrdIf K (OM:=om_true) := fun _ => OL.
Lemma ord_if_false K (KO : KeyOps K) : OrdIf K (OM:=om_false).
Proof. intros []. Qed.

(** ** Traversal marks: keys of a tree in traversal order, separators
    ([None]) as well as entries ([Some v]).  A separator may equal the first
    key to its right. *)
Section Marks.
Context {K V : Type} {KO : KeyOps K} {PF : Profile} {OL : OrdLaws K}.
Notation mark := (K * option V)%type.
Implicit Types (l : list mark) (m : mark).

Definition ltm (m1 m2 : mark) : Prop :=
  match kcmp m1.1 m2.1 with
  | Lt => True
  | Eq => m1.2 = None /\ m2.2 <> None
  | Gt => False
  end.
Definition sortedm l : Prop := StronglySorted ltm l.

Lemma ltm_trans m1 m2 m3 : ltm m1 m2 -> ltm m2 m3 -> ltm m1 m3.
Proof.
  unfold ltm. destruct (kcmp m1.1 m2.1) eqn:E1; destruct (kcmp m2.1 m3.1) eqn:E2; try done.
  - by intros [_ H] [H2 _].
  - intros H _. rewrite (ord_eq _ _ m3.1 E1), E2. done.
  - intros _ H. rewrite <- (kcmp_eq_r _ _ m1.1 E2), E1. done.
  - intros _ _. rewrite (ord_trans _ _ _ E1 E2). done.
Qed.

Lemma sortedm_app l1 l2 : sortedm (l1 ++ l2) <->
  sortedm l1 /\ sortedm l2 /\ (forall x y, x ∈ l1 -> y ∈ l2 -> ltm x y).
Proof.
  unfold sortedm. induction l1 as [|x l1 IH]; simpl.
  - split; [intros H; split_and!; [constructor|done|intros x y Hx; by apply elem_of_nil in Hx]|by intros (_ & ? & _)].
  - split.
    + inversion 1; subst. destruct IH as [IH _]. destruct (IH ltac:(done)) as (I1 & I2 & I3).
      rewrite Forall_app in H3. destruct H3 as [F1 F2].
      split_and!; [by constructor|done|].
      intros a b [->|Ha]%elem_of_cons Hb; [|by apply I3].
      rewrite Forall_forall in F2. by apply F2.
    + intros (H1 & H2 & H3). inversion H1; subst. constructor.
      * apply IH. split_and!; auto. intros a b Ha Hb. apply H3; [by constructor|done].
      * apply Forall_app; split; [done|]. apply Forall_forall. intros b Hb. apply H3; [constructor|done].
Qed.

Lemma sortedm_cons m l : sortedm (m :: l) <-> sortedm l /\ Forall (ltm m) l.
Proof. split; [by inversion 1|intros [??]; by constructor]. Qed.

Lemma sortedm_sublist l1 l2 : l1 `sublist_of` l2 -> sortedm l2 -> sortedm l1.
Proof.
  induction 1 as [|x l1 l2 Hs IH|x l1 l2 Hs IH]; intros H; [done|..].
  - apply sortedm_cons in H as [H1 H2]. apply sortedm_cons. split; [by apply IH|].
    rewrite Forall_forall in *. intros y Hy. apply H2. by eapply elem_of_submseteq, sublist_submseteq.
  - apply sortedm_cons in H as [H1 H2]. by apply IH.
Qed.

(** Entries of a traversal. *)
Definition elems (l : list mark) : list (K * V) := omap (fun m => (fun v => (m.1, v)) <$> m.2) l.
Definition emark (kv : K * V) : mark := (kv.1, Some kv.2).

Lemma elems_app l1 l2 : elems (l1 ++ l2) = elems l1 ++ elems l2.
Proof. apply omap_app. Qed.
Lemma elems_emark kvs : elems (map emark kvs) = kvs.
Proof. induction kvs as [|[k v] kvs IH]; simpl; [done|]. by f_equal. Qed.

Lemma elem_of_elems l k v : (k, v) ∈ elems l <-> (k, Some v) ∈ l.
Proof.
  unfold elems. rewrite elem_of_list_omap. split.
  - intros ([k' [v'|]] & H & E); simpl in E; [|done]. by injection E as -> ->.
  - intros H. by exists (k, Some v).
Qed.

Lemma sortedm_elems l : sortedm l -> ascending (elems l).
Proof.
  unfold ascending. induction 1 as [|[k [v|]] l Hs IH Hf]; simpl; [constructor| |done].
  constructor; [done|]. rewrite Forall_forall in Hf. apply Forall_forall. intros [k' v'] H.
  apply elem_of_elems in H. specialize (Hf _ H). unfold ltm in Hf. simpl in *.
  destruct (kcmp k k'); [|done|done]. by destruct Hf.
Qed.

(** Position of a mark relative to a lookup argument: a separator equal to the
    argument is on its left (the equal key is found to the right of it). *)
Definition mleft (p : probe K) (m : mark) : Prop :=
  match m.2 with None => p m.1 <> Gt | Some _ => p m.1 = Lt end.
Definition mright (p : probe K) (m : mark) : Prop := p m.1 = Gt.

Lemma ltm_mleft p m1 m2 : probe_ok p -> ltm m1 m2 -> mleft p m2 -> mleft p m1.
Proof.
  intros Hp. unfold ltm, mleft. destruct m1 as [k1 o1], m2 as [k2 o2]; simpl.
  destruct (kcmp k1 k2) eqn:E; [|intros _|done].
  - intros [-> H2]. destruct o2; [|done]. rewrite (probe_eq _ Hp _ _ E). congruence.
  - intros H. assert (p k2 <> Gt) as Hn by (destruct o2; congruence).
    rewrite (probe_mono _ Hp _ _ E Hn). by destruct o1.
Qed.
Lemma ltm_mright p m1 m2 : probe_ok p -> ltm m1 m2 -> mright p m1 -> mright p m2.
Proof.
  intros Hp. unfold ltm, mright. destruct m1 as [k1 o1], m2 as [k2 o2]; simpl.
  destruct (kcmp k1 k2) eqn:E; [|intros _|done].
  - intros _. by rewrite (probe_eq _ Hp _ _ E).
  - intros H. eapply probe_gt; eauto. congruence.
Qed.

End Marks.

Section SortedIf.
Context {K V : Type} {KO : KeyOps K} {PF : Profile} {OM : OrdMode}.
Definition sorted_if (l : list (K * option V)) : Prop := ORD -> sortedm l.
Lemma sorted_if_sublist l1 l2 : l1 `sublist_of` l2 -> sorted_if l2 -> sorted_if l1.
Proof. intros Hs H HO. eapply sortedm_sublist; [done|by apply H]. Qed.
End SortedIf.
