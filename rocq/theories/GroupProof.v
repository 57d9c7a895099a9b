(** The [GroupCount] augmentation. *)
From stdpp Require Import list sorting.
From Verif Require Import Base Slots BinSearch LeafNode InnerNode Store Tree Remove Iterators Augment BulkLoad History View
  SlotLemmas NodeLemmas Spec AugSpec GroupSpec Order Logical Descent InsertProof InvLemmas InsertTop
  RemoveLeaf RemoveInner RemoveProof RemoveTop Lookup RefProof AugProof ViewProof IterProof IntoProof HistProof HistTop AugTop CountProof.

Section GroupProof.
Context {K V G : Type} {KO : KeyOps K} {PF : Profile} {OL : OrdLaws K} {GO : KeyOps G} {GL : OrdLaws G} {FR : FromRef K G}
  {MG : MonoGroup K G}.
Notation entry := (K * V)%type.
Implicit Types (l : list entry) (x y z : entry) (g : G).
Notation gof := (group_of (V:=V)).
Notation size := (group_size (V:=V)).
Notation number := (group_number (V:=V)).

(** ** The order on groups *)
Lemma le_trans g1 g2 g3 : kcmp g1 g2 <> Gt -> kcmp g2 g3 <> Gt -> kcmp g1 g3 <> Gt.
Proof.
  intros H1 H2. destruct (kcmp g1 g2) eqn:E1; [|clear H1|done].
  - by rewrite (ord_eq g1 g2) by done.
  - destruct (kcmp g2 g3) eqn:E2; [|by rewrite (ord_trans g1 g2 g3)|done].
    rewrite <- (kcmp_eq_r g2 g3) by done. congruence.
Qed.
Lemma le_lt_trans g1 g2 g3 : kcmp g1 g2 <> Gt -> kcmp g2 g3 = Lt -> kcmp g1 g3 = Lt.
Proof.
  intros H1 H2. destruct (kcmp g1 g2) eqn:E1; [|clear H1|done].
  - by rewrite (ord_eq g1 g2) by done.
  - by apply (ord_trans g1 g2 g3).
Qed.
Lemma lt_le_trans g1 g2 g3 : kcmp g1 g2 = Lt -> kcmp g2 g3 <> Gt -> kcmp g1 g3 = Lt.
Proof.
  intros H1 H2. destruct (kcmp g2 g3) eqn:E2; [| |done].
  - by rewrite <- (kcmp_eq_r g2 g3) by done.
  - by apply (ord_trans g1 g2 g3).
Qed.
Lemma le_antisym g1 g2 : kcmp g1 g2 <> Gt -> kcmp g2 g1 <> Gt -> kcmp g1 g2 = Eq.
Proof. rewrite (ord_sym g1 g2). destruct (kcmp g1 g2); simpl; congruence. Qed.
Lemma le_refl g : kcmp g g <> Gt.
Proof. by rewrite ord_refl. Qed.
Lemma not_gt g1 g2 : kcmp g1 g2 <> Gt <-> kcmp g2 g1 <> Lt.
Proof. by rewrite kcmp_gt_lt. Qed.
Lemma lt_neq_sym g1 g2 : kcmp g1 g2 = Lt -> kcmp g2 g1 = Gt.
Proof. by rewrite kcmp_gt_lt. Qed.

Definition gsorted l : Prop := StronglySorted (fun x y => kcmp (gof x) (gof y) <> Gt) l.

Lemma asc_gsorted l : ascending l -> gsorted l.
Proof.
  unfold ascending, gsorted. induction 1 as [|x l Ha IH Hl]; constructor; [done|].
  eapply Forall_impl; [exact Hl|]. simpl. intros y E. apply group_mono. congruence.
Qed.
Lemma gsorted_app l1 l2 : gsorted (l1 ++ l2) <->
  gsorted l1 /\ gsorted l2 /\ (forall x y, x ∈ l1 -> y ∈ l2 -> kcmp (gof x) (gof y) <> Gt).
Proof.
  unfold gsorted. induction l1 as [|x l1 IH]; simpl.
  - split; [|tauto]. intros H. split_and!; [constructor|done|]. intros x y Hx. by apply elem_of_nil in Hx.
  - split.
    + intros H. inversion H as [|? ? H1 H2]; subst. apply IH in H1 as (Ha & Hb & Hc).
      apply Forall_app in H2 as [H2 H3]. split_and!; [by constructor|done|].
      intros y z Hy Hz. apply elem_of_cons in Hy as [ -> |Hy]; [|by apply Hc]. rewrite Forall_forall in H3. by apply H3.
    + intros (Ha & Hb & Hc). inversion Ha as [|? ? H1 H2]; subst. constructor.
      * apply IH. split_and!; try done. intros y z Hy Hz. apply Hc; [|done]. apply elem_of_cons. by right.
      * apply Forall_app. split; [done|]. apply Forall_forall. intros z Hz. apply Hc; [|done]. apply elem_of_cons. by left.
Qed.
Lemma gsorted_cons x l : gsorted (x :: l) <-> gsorted l /\ Forall (fun y => kcmp (gof x) (gof y) <> Gt) l.
Proof. unfold gsorted. split; [by inversion 1|intros [??]; by constructor]. Qed.

(** ** Counting *)
Lemma in_group_true g x : in_group g x = true <-> kcmp (gof x) g = Eq.
Proof. unfold in_group. destruct (kcmp _ _); split; done. Qed.
Lemma in_group_false g x : in_group g x = false <-> kcmp (gof x) g <> Eq.
Proof. unfold in_group. destruct (kcmp _ _); split; done. Qed.

Lemma size_nil g : size g [] = 0.
Proof. done. Qed.
Lemma size_cons g x l : size g (x :: l) = (if in_group g x then 1 else 0) + size g l.
Proof. unfold group_size, group_members. simpl. by destruct (in_group g x). Qed.
Lemma size_app g l1 l2 : size g (l1 ++ l2) = size g l1 + size g l2.
Proof. unfold group_size, group_members. by rewrite List.filter_app, app_length. Qed.
Lemma size_eq g1 g2 l : kcmp g1 g2 = Eq -> size g1 l = size g2 l.
Proof.
  intros H. induction l as [|x l IH]; [done|]. rewrite !size_cons, IH. unfold in_group.
  by rewrite (kcmp_eq_r g1 g2).
Qed.
Lemma size_all g l : Forall (fun x => kcmp (gof x) g = Eq) l -> size g l = length l.
Proof. induction 1 as [|x l H _ IH]; [done|]. rewrite size_cons, IH. apply in_group_true in H. by rewrite H. Qed.
Lemma size_none g l : Forall (fun x => kcmp (gof x) g <> Eq) l -> size g l = 0.
Proof. induction 1 as [|x l H _ IH]; [done|]. rewrite size_cons, IH. apply in_group_false in H. by rewrite H. Qed.
Lemma size_le g l : size g l <= length l.
Proof. induction l as [|x l IH]; [done|]. rewrite size_cons. simpl. destruct (in_group g x); lia. Qed.

Definition first_is l g : Prop := exists x l', l = x :: l' /\ kcmp (gof x) g = Eq.
Definition last_is l g : Prop := exists l' x, l = l' ++ [x] /\ kcmp (gof x) g = Eq.

Lemma gs_first_le l g : gsorted l -> first_is l g -> Forall (fun x => kcmp g (gof x) <> Gt) l.
Proof.
  intros Hs (x & l' & -> & E). apply kcmp_eq_sym in E. apply gsorted_cons in Hs as [_ Hs]. constructor; [congruence|].
  eapply Forall_impl; [exact Hs|]. simpl. intros y Hy. by rewrite (ord_eq g (gof x)).
Qed.
Lemma gs_last_ge l g : gsorted l -> last_is l g -> Forall (fun x => kcmp (gof x) g <> Gt) l.
Proof.
  intros Hs (l' & x & -> & E). apply gsorted_app in Hs as (_ & _ & Hs). apply Forall_app. split; [|constructor; [congruence|constructor]].
  apply Forall_forall. intros y Hy. rewrite <- (kcmp_eq_r (gof x) g) by done. apply Hs; [done|]. by apply elem_of_list_singleton.
Qed.

Lemma existsb_size g l : existsb (in_group g) l = negb (bool_decide (size g l = 0)).
Proof.
  induction l as [|x l IH]; [done|]. simpl. rewrite size_cons, IH. destruct (in_group g x); cbn [orb].
  - by rewrite bool_decide_eq_false_2 by lia.
  - done.
Qed.

Lemma number_same l g : l <> [] -> Forall (fun x => kcmp (gof x) g = Eq) l -> number l = 1.
Proof.
  intros Hne H. induction H as [|x l Hx Hl IH]; [done|]. simpl. destruct l as [|y l]; [done|].
  rewrite IH by done. rewrite existsb_size. apply Forall_cons in Hl as [Hy _]. rewrite size_cons.
  assert (in_group (gof x) y = true) as ->.
  { apply in_group_true. rewrite (ord_eq (gof y) g) by done. by apply kcmp_eq_sym. }
  by rewrite bool_decide_eq_false_2 by lia.
Qed.

Lemma number_cons x l : number (x :: l) = (if existsb (in_group (gof x)) l then 0 else 1) + number l.
Proof. done. Qed.

(** Joining two runs: the last group of the first may go on. *)
Lemma number_app l1 l2 g1 g2 : gsorted (l1 ++ l2) -> last_is l1 g1 -> first_is l2 g2 ->
  number (l1 ++ l2) = number l1 + number l2 - (if group_eqb g1 g2 then 1 else 0).
Proof.
  intros Hs (l' & z & -> & Ez) (y & l2' & -> & Ey).
  assert (forall l, gsorted ((l ++ [z]) ++ y :: l2') -> 1 <= number (l ++ [z]) /\
    number ((l ++ [z]) ++ y :: l2') = number (l ++ [z]) + number (y :: l2') - (if group_eqb g1 g2 then 1 else 0)) as H;
    [|by apply H].
  clear Hs l'. intros l Hs. induction l as [|x l IH].
  - simpl. split; [lia|]. rewrite (existsb_size _ l2').
    assert (in_group (gof z) y = group_eqb g1 g2) as ->.
    { unfold in_group, group_eqb. rewrite (ord_eq (gof y) g2) by done. rewrite (kcmp_eq_r (gof z) g1) by done.
      rewrite (ord_sym g1 g2). by destruct (kcmp g1 g2). }
    destruct (group_eqb g1 g2) eqn:Eg; simpl; [lia|].
    assert (size (gof z) l2' = 0) as ->.
    { apply size_none. unfold group_eqb in Eg.
      assert (kcmp (gof z) (gof y) = Lt) as Hlt.
      { apply gsorted_app in Hs as (_ & _ & Hs). specialize (Hs z y ltac:(by apply elem_of_list_singleton) ltac:(apply elem_of_cons; by left)).
        rewrite (ord_eq (gof z) g1), (kcmp_eq_r (gof y) g2) in Hs |- * by done. by destruct (kcmp g1 g2). }
      apply gsorted_app in Hs as (_ & Hs & _). apply gsorted_cons in Hs as [_ Hs]. eapply Forall_impl; [exact Hs|].
      simpl. intros w Hw. rewrite (lt_neq_sym (gof z) (gof w)); [done|]. by eapply lt_le_trans. }
    simpl. lia.
  - cbn [app] in *. apply gsorted_cons in Hs as [Hs Hx]. destruct (IH Hs) as [IH1 IH2]. rewrite !(number_cons x).
    rewrite IH2. split; [lia|]. rewrite (existsb_size _ (_ ++ y :: l2')), (existsb_size _ (l ++ [z])), (size_app _ (l ++ [z]) (y :: l2')).
    destruct (decide (size (gof x) (l ++ [z]) = 0)) as [E0|E0].
    + assert (size (gof x) (y :: l2') = 0) as Ey0.
      { apply size_none. apply gsorted_app in Hs as (_ & _ & Hs).
        assert (kcmp (gof x) (gof z) = Lt) as Hlt.
        { assert (kcmp (gof x) (gof z) <> Gt) as Hle.
          { rewrite Forall_forall in Hx. apply Hx. rewrite !elem_of_app, elem_of_list_singleton. tauto. }
          assert (kcmp (gof x) (gof z) <> Eq) as Hne; [|by destruct (kcmp (gof x) (gof z))].
          intros E. rewrite size_app, size_cons in E0. apply kcmp_eq_sym, in_group_true in E. rewrite E in E0. lia. }
        apply Forall_forall. intros w Hw. rewrite (lt_neq_sym (gof x) (gof w)); [done|].
        eapply lt_le_trans; [exact Hlt|]. apply Hs; [|done]. rewrite elem_of_app, elem_of_list_singleton. tauto. }
      rewrite !bool_decide_eq_true_2 by lia. cbn [negb]. destruct (group_eqb g1 g2); lia.
    + rewrite !bool_decide_eq_false_2 by lia. cbn [negb]. destruct (group_eqb g1 g2); lia.
Qed.

(** ** Summaries *)
Definition summ (a : group_count G) l : Prop :=
  match a with
  | GcZero => l = []
  | GcOne g c => l <> [] /\ Forall (fun x => kcmp (gof x) g = Eq) l /\ c = length l
  | GcMultiple mn mx n =>
      first_is l mn.1 /\ last_is l mx.1 /\ kcmp mn.1 mx.1 = Lt /\ n = number l /\ mn.2 = size mn.1 l /\
      (sizes_ok l -> mx.2 = size mx.1 l)
  end.

Lemma one_first g l : l <> [] -> Forall (fun x => kcmp (gof x) g = Eq) l -> first_is l g.
Proof. destruct l as [|x l]; [done|]. intros _ H. apply Forall_cons in H as [? _]. by exists x, l. Qed.
Lemma one_last g l : l <> [] -> Forall (fun x => kcmp (gof x) g = Eq) l -> last_is l g.
Proof.
  destruct l as [|x l _] using rev_ind; [done|]. intros _ H. apply Forall_app in H as [_ H]. apply Forall_cons in H as [? _]. by exists l, x.
Qed.

Lemma head_first l y g : head l = Some y -> in_group g y = true -> first_is l g.
Proof. destruct l as [|x l]; [done|]. intros [= ->] H%in_group_true. by exists y, l. Qed.
Lemma last_last l y g : list.last l = Some y -> in_group g y = true -> last_is l g.
Proof.
  destruct l as [|x l _] using rev_ind; [done|]. rewrite last_snoc. intros [= ->] H%in_group_true. by exists l, y.
Qed.
Lemma first_exists l : l <> [] -> exists g, first_is l g.
Proof. destruct l as [|x l]; [done|]. intros _. exists (gof x), x, l. split; [done|apply ord_refl]. Qed.
Lemma last_exists l : l <> [] -> exists g, last_is l g.
Proof. destruct l as [|x l _] using rev_ind; [done|]. intros _. exists (gof x), l, x. split; [done|apply ord_refl]. Qed.
Lemma first_nonnil l g : first_is l g -> l <> [].
Proof. by intros (x & l' & -> & _). Qed.
Lemma last_nonnil l g : last_is l g -> l <> [].
Proof. intros (l' & x & -> & _). by destruct l'. Qed.
Lemma first_app l1 l2 g : first_is l1 g -> first_is (l1 ++ l2) g.
Proof. intros (x & l' & -> & E). by exists x, (l' ++ l2). Qed.
Lemma last_app l1 l2 g : last_is l2 g -> last_is (l1 ++ l2) g.
Proof. intros (l' & x & -> & E). exists (l1 ++ l'), x. by rewrite app_assoc. Qed.
Lemma first_eq l g g' : kcmp g g' = Eq -> first_is l g -> first_is l g'.
Proof. intros Eg (x & l' & -> & E). exists x, l'. split; [done|]. by rewrite <- (kcmp_eq_r g g'). Qed.
Lemma last_eq l g g' : kcmp g g' = Eq -> last_is l g -> last_is l g'.
Proof. intros Eg (l' & x & -> & E). exists l', x. split; [done|]. by rewrite <- (kcmp_eq_r g g'). Qed.
Lemma first_same l g g' : first_is l g -> first_is l g' -> kcmp g g' = Eq.
Proof. intros (x & l' & -> & E) (x' & ? & [= <- <-] & E'). rewrite <- (ord_eq (gof x) g) by done. done. Qed.
Lemma last_same l g g' : last_is l g -> last_is l g' -> kcmp g g' = Eq.
Proof.
  intros (l' & x & -> & E) (? & x' & [<- [= <-]]%app_inj_tail & E'). rewrite <- (ord_eq (gof x) g) by done. done.
Qed.

(** What lies left and right of the place where two runs meet. *)
Record meet l1 l2 gl gf : Prop := {
  mt_le : kcmp gl gf <> Gt;
  mt_left : forall x, x ∈ l1 -> kcmp (gof x) gl <> Gt;
  mt_right : forall x, x ∈ l2 -> kcmp gf (gof x) <> Gt;
  mt_size_r : forall g, kcmp g gf = Lt -> size g l2 = 0;
  mt_size_l : forall g, kcmp gl g = Lt -> size g l1 = 0;
}.
Lemma meet_ok l1 l2 gl gf : gsorted (l1 ++ l2) -> last_is l1 gl -> first_is l2 gf -> meet l1 l2 gl gf.
Proof.
  intros Hs Hl Hf. apply gsorted_app in Hs as (H1 & H2 & H3).
  pose proof (gs_last_ge _ _ H1 Hl) as F1. pose proof (gs_first_le _ _ H2 Hf) as F2. rewrite Forall_forall in F1, F2. split.
  - destruct Hl as (l' & x & -> & Ex), Hf as (y & l'' & -> & Ey).
    rewrite <- (ord_eq (gof x) gl), <- (kcmp_eq_r (gof y) gf) by done.
    apply H3; [apply elem_of_app; right; by apply elem_of_list_singleton|apply elem_of_cons; by left].
  - done.
  - done.
  - intros g Hg. apply size_none, Forall_forall. intros x Hx. rewrite (lt_neq_sym g); [done|]. eapply lt_le_trans; [done|by apply F2].
  - intros g Hg. apply size_none, Forall_forall. intros x Hx. assert (kcmp (gof x) g = Lt) as ->; [|done].
    eapply le_lt_trans; [by apply F1|done].
Qed.

Lemma sizes_ok_mid a m b : gsorted (a ++ m ++ b) -> sizes_ok (a ++ m ++ b) -> sizes_ok m.
Proof.
  intros Hs Ht x Hx. assert (m <> []) as Hm by (intros ->; by apply elem_of_nil in Hx).
  destruct (first_exists m Hm) as [gf Hf], (last_exists m Hm) as [gl Hl].
  assert (gsorted m) as Hsm.
  { apply gsorted_app in Hs as (_ & Hs & _). by apply gsorted_app in Hs as (Hs & _). }
  pose proof (gs_first_le _ _ Hsm Hf) as F1. pose proof (gs_last_ge _ _ Hsm Hl) as F2. rewrite Forall_forall in F1, F2.
  specialize (F1 x Hx). specialize (F2 x Hx).
  destruct (kcmp gf (gof x)) eqn:E1; [|clear F1|done].
  { right. right. left. destruct Hf as (y & m' & -> & E). exists y. split; [done|]. apply in_group_true. by rewrite (ord_eq (gof y) gf). }
  destruct (kcmp (gof x) gl) eqn:E2; [|clear F2|done].
  { right. right. right. destruct Hl as (m' & y & -> & E). exists y. rewrite last_snoc. split; [done|].
    apply in_group_true. rewrite (ord_eq (gof y) gl) by done. by apply kcmp_eq_sym. }
  assert (forall y, y ∈ a -> kcmp (gof y) (gof x) = Lt) as Ha.
  { intros y Hy. eapply le_lt_trans; [|exact E1]. destruct Hf as (z & m' & -> & E).
    rewrite <- (kcmp_eq_r (gof z) gf) by done. apply gsorted_app in Hs as (_ & _ & Hs). apply Hs; [done|].
    cbn [app]. apply elem_of_cons. by left. }
  assert (forall y, y ∈ b -> kcmp (gof x) (gof y) = Lt) as Hb.
  { intros y Hy. eapply lt_le_trans; [exact E2|]. destruct Hl as (m' & z & -> & E).
    rewrite <- (ord_eq (gof z) gl) by done. apply gsorted_app in Hs as (_ & Hs & _). apply gsorted_app in Hs as (_ & _ & Hs).
    apply Hs; [|done]. apply elem_of_app. right. by apply elem_of_list_singleton. }
  assert (size (gof x) (a ++ m ++ b) = size (gof x) m) as Es.
  { rewrite !size_app. rewrite (size_none _ a), (size_none _ b); [lia| |]; apply Forall_forall; intros y Hy.
    - rewrite (lt_neq_sym (gof x)); [done|by apply Hb].
    - by rewrite Ha. }
  destruct (Ht x) as [H|[H|[(y & H1 & H2)|(y & H1 & H2)]]].
  - rewrite !elem_of_app. tauto.
  - left. by rewrite <- Es.
  - right. left. by rewrite <- Es.
  - exfalso. apply in_group_true in H2. destruct a as [|y' a].
    + destruct Hf as (z & m' & -> & E). injection H1 as ->. rewrite (ord_eq (gof y) gf) in H2 by done. congruence.
    + injection H1 as ->. rewrite Ha in H2; [done|]. apply elem_of_cons. by left.
  - exfalso. apply in_group_true in H2. destruct b as [|y' b _] using rev_ind.
    + destruct Hl as (m' & z & -> & E). rewrite app_nil_r, app_assoc, last_snoc in H1. injection H1 as ->.
      rewrite (ord_eq (gof y) gl) in H2 by done. apply kcmp_eq_sym in H2. congruence.
    + rewrite !app_assoc, last_snoc in H1. injection H1 as ->. apply kcmp_eq_sym in H2. rewrite Hb in H2; [done|].
      apply elem_of_app. right. by apply elem_of_list_singleton.
Qed.
Lemma sizes_ok_l l1 l2 : gsorted (l1 ++ l2) -> sizes_ok (l1 ++ l2) -> sizes_ok l1.
Proof. intros H1 H2. by apply (sizes_ok_mid [] l1 l2). Qed.
Lemma sizes_ok_r l1 l2 : gsorted (l1 ++ l2) -> sizes_ok (l1 ++ l2) -> sizes_ok l2.
Proof. intros H1 H2. apply (sizes_ok_mid l1 l2 []); by rewrite app_nil_r. Qed.

Lemma eqb_true g1 g2 : group_eqb g1 g2 = true <-> kcmp g1 g2 = Eq.
Proof. unfold group_eqb. destruct (kcmp g1 g2); split; done. Qed.
Lemma eqb_sym g1 g2 : group_eqb g1 g2 = group_eqb g2 g1.
Proof. unfold group_eqb. rewrite (ord_sym g1 g2). by destruct (kcmp g1 g2). Qed.
Lemma eqb_false_lt g1 g2 : group_eqb g1 g2 = false -> kcmp g1 g2 <> Gt -> kcmp g1 g2 = Lt.
Proof. unfold group_eqb. by destruct (kcmp g1 g2). Qed.

Lemma summ_merge a1 a2 l1 l2 : gsorted (l1 ++ l2) -> summ a1 l1 -> summ a2 l2 -> summ (gc_merge a1 a2) (l1 ++ l2).
Proof.
  intros Hs H1 H2.
  destruct a1 as [|g1 c1|mn1 mx1 n1]; [by simpl in H1; subst l1| |].
  - destruct H1 as (Hn1 & F1 & ->).
    destruct a2 as [|g2 c2|mn2 mx2 n2].
    + simpl in H2. subst l2. by rewrite app_nil_r.
    + destruct H2 as (Hn2 & F2 & ->). pose proof (one_last _ _ Hn1 F1) as L1. pose proof (one_first _ _ Hn2 F2) as L2.
      pose proof (meet_ok _ _ _ _ Hs L1 L2) as M. cbn [gc_merge].
      pose proof (number_app _ _ _ _ Hs L1 L2) as Hnum. rewrite (number_same l1 g1), (number_same l2 g2) in Hnum by done.
      destruct (group_eqb g1 g2) eqn:E; simpl.
      * apply eqb_true in E. split; [by destruct l1|]. split; [|by rewrite app_length].
        apply Forall_app. split; [done|]. eapply Forall_impl; [exact F2|]. simpl. intros x Hx. by rewrite (kcmp_eq_r g1 g2).
      * assert (kcmp g1 g2 = Lt) as Hlt by (apply eqb_false_lt; [done|apply M]).
        split_and!; [by apply first_app, one_first|by apply last_app, one_last|done|lia| |].
        -- rewrite size_app, (size_all g1 l1) by done. rewrite (mt_size_r _ _ _ _ M) by done. lia.
        -- intros _. rewrite size_app, (size_all g2 l2) by done. rewrite (mt_size_l _ _ _ _ M) by done. lia.
    + destruct H2 as (Ff & Fl & Hlt & -> & E1 & E2). pose proof (one_last _ _ Hn1 F1) as L1.
      pose proof (meet_ok _ _ _ _ Hs L1 Ff) as M. cbn [gc_merge].
      pose proof (number_app _ _ _ _ Hs L1 Ff) as Hnum. rewrite (number_same l1 g1) in Hnum by done.
      assert (kcmp g1 mx2.1 = Lt) as Hlt' by (eapply le_lt_trans; [apply M|done]).
      assert (sizes_ok (l1 ++ l2) -> mx2.2 = size mx2.1 (l1 ++ l2)) as Hmx.
      { intros Ht. rewrite size_app, (mt_size_l _ _ _ _ M) by done. apply E2. by eapply sizes_ok_r. }
      destruct (group_eqb g1 mn2.1) eqn:E; cbn [summ fst snd].
      * apply eqb_true in E. split_and!; [by apply first_app, one_first|by apply last_app|done|lia| |done].
        rewrite size_app, (size_all g1 l1), E1 by done. by rewrite (size_eq g1 mn2.1).
      * assert (kcmp g1 mn2.1 = Lt) as Hlt2 by (apply eqb_false_lt; [done|apply M]).
        split_and!; [by apply first_app, one_first|by apply last_app|done|lia| |done].
        rewrite size_app, (size_all g1 l1) by done. rewrite (mt_size_r _ _ _ _ M) by done. lia.
  - destruct H1 as (Ff1 & Fl1 & Hlt1 & -> & E1 & E2).
    destruct a2 as [|g2 c2|mn2 mx2 n2].
    + simpl in H2. subst l2. by rewrite app_nil_r.
    + destruct H2 as (Hn2 & F2 & ->). pose proof (one_first _ _ Hn2 F2) as L2.
      pose proof (meet_ok _ _ _ _ Hs Fl1 L2) as M. cbn [gc_merge].
      pose proof (number_app _ _ _ _ Hs Fl1 L2) as Hnum. rewrite (number_same l2 g2) in Hnum by done.
      rewrite (eqb_sym mx1.1) in Hnum.
      assert (mn1.2 = size mn1.1 (l1 ++ l2)) as Hmn.
      { rewrite size_app, (mt_size_r _ _ _ _ M); [lia|]. eapply lt_le_trans; [done|apply M]. }
      destruct (group_eqb g2 mx1.1) eqn:E; cbn [summ fst snd].
      * apply eqb_true in E. split_and!; [by apply first_app| |done|lia|done|].
        -- apply last_app. by eapply last_eq, one_last.
        -- intros Ht. rewrite size_app, E2 by (by eapply sizes_ok_l). f_equal.
           rewrite <- (size_eq g2 mx1.1) by done. by rewrite size_all.
      * assert (kcmp mx1.1 g2 = Lt) as Hlt2 by (apply eqb_false_lt; [by rewrite eqb_sym|apply M]).
        split_and!; [by apply first_app|by apply last_app, one_last|by eapply ord_trans|lia|done|].
        intros _. rewrite size_app, (size_all g2 l2) by done. rewrite (mt_size_l _ _ _ _ M) by done. lia.
    + destruct H2 as (Ff2 & Fl2 & Hlt2 & -> & E3 & E4).
      pose proof (meet_ok _ _ _ _ Hs Fl1 Ff2) as M. cbn [gc_merge].
      pose proof (number_app _ _ _ _ Hs Fl1 Ff2) as Hnum. cbn [summ fst snd].
      split_and!; [by apply first_app|by apply last_app| | | |].
      * eapply ord_trans; [exact Hlt1|]. eapply le_lt_trans; [apply M|done].
      * rewrite Hnum. destruct (group_eqb mx1.1 mn2.1); lia.
      * rewrite size_app, (mt_size_r _ _ _ _ M); [lia|]. eapply lt_le_trans; [done|apply M].
      * intros Ht. rewrite size_app, (mt_size_l _ _ _ _ M); [apply E4; by eapply sizes_ok_r|].
        eapply le_lt_trans; [apply M|done].
Qed.

Lemma summ_fold aus ls acc pre : gsorted (pre ++ concat ls) -> summ acc pre -> Forall2 summ aus ls ->
  summ (fold_left gc_merge aus acc) (pre ++ concat ls).
Proof.
  intros Hs Ha Hf. revert acc pre Hs Ha. induction Hf as [|a l aus ls Hal Hf IH]; intros acc pre Hs Ha; simpl.
  - by rewrite app_nil_r.
  - simpl in Hs. rewrite app_assoc in Hs |- *. apply IH; [done|]. apply summ_merge; [|done|done].
    by apply gsorted_app in Hs as (Hs & _).
Qed.

(** ** Leaves *)
Lemma interior_one l x gf gl : length l <= 64 -> sizes_ok l -> x ∈ l -> first_is l gf -> last_is l gl ->
  kcmp (gof x) gf <> Eq -> kcmp (gof x) gl <> Eq -> size (gof x) l = 1.
Proof.
  intros Hl Ht Hx Hf Hla N1 N2. destruct (Ht x Hx) as [H|[H|[(y & H1 & H2)|(y & H1 & H2)]]]; [done|exfalso..].
  - destruct Hf as (y & l' & -> & E1). destruct Hla as (l'' & z & E & E2).
    rewrite size_cons in H. rewrite (proj2 (in_group_false _ y)) in H.
    2:{ intros E'. apply N1. apply kcmp_eq_sym in E'. by rewrite <- (kcmp_eq_r (gof y) gf). }
    destruct l' as [|w l' _] using rev_ind.
    { rewrite size_nil in H. lia. }
    rewrite app_comm_cons in E. apply app_inj_tail in E as [_ ->].
    rewrite size_app, size_cons in H. rewrite (proj2 (in_group_false _ z)) in H.
    2:{ intros E'. apply N2. apply kcmp_eq_sym in E'. by rewrite <- (kcmp_eq_r (gof z) gl). }
    rewrite size_nil in H. pose proof (size_le (gof x) l'). simpl in Hl. rewrite app_length in Hl. simpl in Hl. lia.
  - apply N1. apply kcmp_eq_sym. rewrite <- (ord_eq (gof y) gf).
    + by apply in_group_true.
    + destruct Hf as (z & l' & -> & E). by injection H1 as ->.
  - apply N2. apply kcmp_eq_sym. rewrite <- (ord_eq (gof y) gl).
    + by apply in_group_true.
    + destruct Hla as (l' & z & -> & E). rewrite last_snoc in H1. by injection H1 as ->.
Qed.

Lemma leaf_loop_ok (whole : list entry) (g0 : G) (rest pre : list entry) (cnt mn la : nat) (lg : G) (at_last : bool) : whole = pre ++ rest -> gsorted whole -> length whole <= 64 ->
  first_is pre g0 -> last_is pre lg -> cnt = number pre -> mn = size g0 pre ->
  (if at_last then kcmp g0 lg = Lt /\ 2 <= cnt /\ (sizes_ok whole -> la = size lg pre) else kcmp g0 lg = Eq /\ la = 1) ->
  let '(cnt', mn', la', lg') := gc_leaf_loop (map fst rest) cnt mn la lg at_last in
  cnt' = number whole /\ mn' = size g0 whole /\ last_is whole lg' /\
  ((cnt' = 1 /\ Forall (fun x => kcmp (gof x) g0 = Eq) whole) \/
   (2 <= cnt' /\ kcmp g0 lg' = Lt /\ (sizes_ok whole -> la' = size lg' whole))).
Proof.
  intros -> Hs Hlen. revert pre cnt mn la lg at_last Hs Hlen.
  induction rest as [|x rest IH]; intros pre cnt mn la lg at_last Hs Hlen Hf Hl Hc Hm Ha; cbn [gc_leaf_loop map].
  - rewrite app_nil_r in *. split; [done|]. split; [done|]. split; [done|]. destruct at_last; [right|left].
    + tauto.
    + assert (Forall (fun x => kcmp (gof x) g0 = Eq) pre) as Hall.
      { pose proof (gs_first_le _ _ Hs Hf) as F1. pose proof (gs_last_ge _ _ Hs Hl) as F2.
        rewrite Forall_forall in F1, F2 |- *. intros x Hx. apply le_antisym; [|by apply F1].
        rewrite (kcmp_eq_r g0 lg) by tauto. by apply F2. }
      split; [|done]. rewrite Hc. eapply number_same; [|exact Hall]. by eapply first_nonnil.
  - fold (gof x). assert (pre ++ x :: rest = (pre ++ [x]) ++ rest) as Ew by (by rewrite <- app_assoc).
    rewrite Ew in *. assert (gsorted (pre ++ [x])) as Hsp by (by apply gsorted_app in Hs as (Hs & _)).
    assert (first_is [x] (gof x)) as Hfx by (exists x, []; split; [done|apply ord_refl]).
    assert (last_is [x] (gof x)) as Hlx by (exists [], x; split; [done|apply ord_refl]).
    pose proof (number_app _ _ _ _ Hsp Hl Hfx) as Hnum. pose proof (meet_ok _ _ _ _ Hsp Hl Hfx) as M.
    change (number [x]) with 1 in Hnum.
    assert (forall g, size g [x] = if in_group g x then 1 else 0) as Hsx by (intros g; rewrite size_cons, size_nil; lia).
    destruct (group_eqb lg (gof x)) eqn:E; simpl negb; cbv iota.
    + apply eqb_true in E. assert (last_is (pre ++ [x]) lg) as Hl'.
      { apply last_app. exists [], x. split; [done|]. by apply kcmp_eq_sym. }
      destruct at_last.
      * apply IH; try done; [by apply first_app|lia| |].
        -- rewrite size_app, Hsx, (proj2 (in_group_false g0 x)); [lia|].
           rewrite (lt_neq_sym g0); [done|]. eapply lt_le_trans; [apply Ha|]. congruence.
        -- destruct Ha as (Ha1 & Ha2 & Ha3). split_and!; [done|done|]. intros Ht.
           rewrite size_app, Hsx, (proj2 (in_group_true lg x)); [|by apply kcmp_eq_sym]. by rewrite Ha3.
      * apply IH; try done; [by apply first_app|lia|].
        rewrite size_app, Hsx, (proj2 (in_group_true g0 x)); [lia|].
        apply kcmp_eq_sym. rewrite (ord_eq g0 lg); [done|]. apply Ha.
    + assert (kcmp lg (gof x) = Lt) as Hlt by (apply eqb_false_lt; [done|apply M]).
      assert (kcmp g0 lg <> Gt) as H0 by (destruct at_last; [rewrite (proj1 Ha)|rewrite (proj1 Ha)]; done).
      assert (kcmp g0 (gof x) = Lt) as H1 by (by eapply le_lt_trans).
      assert (1 <= number pre) as Hn1.
      { destruct Hf as (y & l & -> & _). destruct Hl as (l' & z & E' & _). clear.
        induction l as [|w l IHl] in y |- *; simpl; [lia|]. specialize (IHl w). simpl in IHl. lia. }
      apply IH; try done; [by apply first_app|by apply last_app|lia| |].
      * rewrite size_app, Hsx, (proj2 (in_group_false g0 x)); [lia|]. by rewrite (lt_neq_sym g0).
      * split_and!; [done|lia|]. intros Ht. rewrite size_app, Hsx, (proj2 (in_group_true (gof x) x)) by apply ord_refl.
        rewrite (mt_size_l _ _ _ _ M) by done. cbn [Nat.add].
        destruct at_last; [|apply Ha]. destruct Ha as (Ha1 & Ha2 & Ha3). rewrite Ha3 by done.
        destruct (last_exists ((pre ++ [x]) ++ rest)) as [gl Hgl]; [by destruct pre|].
        assert (kcmp (gof x) gl <> Gt) as Hxl.
        { pose proof (gs_last_ge _ _ Hs Hgl) as F. rewrite Forall_forall in F. apply F.
          rewrite !elem_of_app, elem_of_list_singleton. tauto. }
        destruct Hl as (l' & y & Ep & Ey).
        rewrite (size_eq lg (gof y)) by (by apply kcmp_eq_sym).
        assert (size (gof y) ((pre ++ [x]) ++ rest) = size (gof y) pre) as Esz.
        { rewrite <- Ew in Hs |- *. rewrite size_app. assert (size (gof y) (x :: rest) = 0) as ->; [|lia].
          apply size_none. apply gsorted_app in Hs as (_ & Hs & _). apply gsorted_cons in Hs as [_ Hs].
          assert (kcmp (gof y) (gof x) = Lt) as Hyx by (by rewrite (ord_eq (gof y) lg)).
          constructor; [by rewrite (lt_neq_sym (gof y))|]. eapply Forall_impl; [exact Hs|]. simpl. intros z Hz.
          rewrite (lt_neq_sym (gof y)); [done|]. by eapply lt_le_trans. }
        rewrite <- Esz. eapply interior_one; [done|done| |by apply first_app, first_app|done| |].
        -- rewrite !elem_of_app, Ep, elem_of_app, elem_of_list_singleton. tauto.
        -- rewrite (ord_eq (gof y) lg) by done. by rewrite (lt_neq_sym g0).
        -- rewrite (ord_eq (gof y) lg) by done. rewrite (lt_le_trans lg (gof x) gl) by done. done.
Qed.

Lemma summ_leaf kvs : ascending kvs -> length kvs <= 64 -> summ (gc_from_leaf (map fst kvs)) kvs.
Proof.
  intros Ha Hl. apply asc_gsorted in Ha. destruct kvs as [|x kvs]; [done|]. cbn [gc_from_leaf map]. fold (gof x).
  pose proof (leaf_loop_ok (x :: kvs) (gof x) kvs [x] 1 1 1 (gof x) false eq_refl Ha Hl) as H.
  destruct (gc_leaf_loop (map fst kvs) 1 1 1 (gof x) false) as [[[cnt mn] la] lg].
  destruct H as (-> & -> & Hlast & H).
  - exists x, []. split; [done|apply ord_refl].
  - exists [], x. split; [done|apply ord_refl].
  - done.
  - by rewrite size_cons, (proj2 (in_group_true _ x)) by apply ord_refl.
  - split; [apply ord_refl|done].
  - destruct H as [[E H]|(E & H1 & H2)].
    + rewrite E. simpl summ. split_and!; [done|done|]. by apply size_all.
    + assert (first_is (x :: kvs) (gof x)) as Hf by (exists x, kvs; split; [done|apply ord_refl]).
      destruct (number (x :: kvs)) as [|[|n]] eqn:En; [lia|lia|]. cbn [summ fst snd]. by split_and!.
Qed.

(** ** The summary law *)
Context (nd : bool).
Local Instance the_group : AugOps K V (group_count G) := group_aug nd.
Local Instance the_group_search : SearchOps K V (group_count G) (G * nat) := group_search.
Local Instance the_group_rank : RankOps K V (group_count G) (option (G * nat)) := group_rank.
Notation tree := (tree K V (group_count G)).
Notation tr := (tr K V).

Lemma group_key_aug : key_aug (K:=K) (V:=V) (A:=group_count G).
Proof. by intros ks vs vs' _. Qed.

Lemma group_summary : summary_ok summ.
Proof.
  split.
  - intros kvs. apply summ_leaf.
  - intros ks aus ls Ha _ _ Hf. apply (summ_fold aus ls GcZero []); [by apply asc_gsorted|done|done].
  - done.
Qed.

Lemma group_root b T l : reachable (A:=group_count G) b T l -> summ (t_aug T) l.
Proof.
  intros Hr. destruct (reachable_any True b T l Hr (fun _ => group_key_aug)) as (ri & h & t & Hlow & _ & HI & <- & _).
  eapply root_summary; [|apply group_summary|exact HI]. lia.
Qed.

Lemma group_count_ok b T l : reachable (A:=group_count G) b T l -> gc_group_count (t_aug T) = number l.
Proof.
  intros Hr. apply group_root in Hr. destruct (t_aug T) as [|g c|mn mx n]; simpl in *.
  - by subst l.
  - destruct Hr as (H1 & H2 & _). symmetry. by eapply number_same.
  - tauto.
Qed.

Lemma max_group_summ a l : summ a l -> sizes_ok l ->
  match gc_max_group a with
  | None => l = []
  | Some (g, c) => last_is l g /\ c = size g l
  end.
Proof.
  intros H Ht. destruct a as [|g c|mn [g c] n]; simpl in *; [done| |].
  - destruct H as (H1 & H2 & ->). split; [by apply one_last|]. by rewrite size_all.
  - destruct H as (H1 & H2 & H3 & H4 & H5 & H6). split; [done|]. by apply H6.
Qed.

Lemma max_group_ok b T l : reachable (A:=group_count G) b T l -> sizes_ok l ->
  match gc_max_group (t_aug T) with
  | None => l = []
  | Some (g, c) => last_is l g /\ c = size g l
  end.
Proof. intros Hr. by apply max_group_summ, (group_root b). Qed.

Lemma max_group_top b T l : reachable (A:=group_count G) b T l -> sizes_ok l ->
  match gc_max_group (t_aug T) with
  | None => l = []
  | Some (g, c) => (exists x, x ∈ l /\ kcmp (gof x) g = Eq) /\ (forall x, x ∈ l -> kcmp (gof x) g <> Gt) /\
      c = size g l
  end.
Proof.
  intros Hr Ht. pose proof (max_group_ok b T l Hr Ht) as H. destruct (gc_max_group (t_aug T)) as [[g c]|]; [|done].
  destruct H as [Hl ->]. split_and!; [|apply Forall_forall, gs_last_ge; [|done]|done].
  - destruct Hl as (l' & x & -> & E). exists x. split; [|done]. apply elem_of_app. right. by apply elem_of_list_singleton.
  - destruct (reachable_any False b T l Hr) as (ri & h & t & _ & _ & _ & <- & Ha & _); [done|]. by apply asc_gsorted.
Qed.

(** ** Search *)
Lemma group_pos_none l g i : size g l <= i -> group_pos l g i = None.
Proof.
  revert i. induction l as [|x l IH]; intros i; [done|]. rewrite size_cons. simpl.
  destruct (in_group g x); intros H; [destruct i as [|i]; [lia|]|]; rewrite IH by lia; done.
Qed.
Lemma group_pos_app l1 l2 g i : group_pos (l1 ++ l2) g i =
  if decide (i < size g l1) then group_pos l1 g i else Nat.add (length l1) <$> group_pos l2 g (i - size g l1).
Proof.
  revert i. induction l1 as [|x l1 IH]; intros i.
  - rewrite size_nil, decide_False by lia. simpl. rewrite Nat.sub_0_r. by destruct (group_pos l2 g i).
  - cbn [app group_pos]. rewrite size_cons. destruct (in_group g x).
    + destruct i as [|i]; [by rewrite decide_True by lia|]. rewrite IH. cbn [Nat.add].
      destruct (decide (i < size g l1)); [by rewrite decide_True by lia|]. rewrite decide_False by lia.
      simpl. destruct (group_pos l2 g _); done.
    + rewrite IH. cbn [Nat.add]. destruct (decide (i < size g l1)); [done|]. simpl. destruct (group_pos l2 g _); done.
Qed.
Lemma group_pos_members l g i : group_members g l !! i =
  match group_pos l g i with Some j => l !! j | None => None end.
Proof.
  revert i. induction l as [|x l IH]; intros i; [done|]. unfold group_members in *. simpl. destruct (in_group g x).
  - destruct i as [|i]; [done|]. simpl. rewrite IH. by destruct (group_pos l g i).
  - rewrite IH. by destruct (group_pos l g i).
Qed.
Lemma group_pos_lt l g i j : group_pos l g i = Some j -> j < length l.
Proof.
  revert i j. induction l as [|x l IH]; intros i j; [done|]. simpl. destruct (in_group g x).
  - destruct i as [|i]; [intros [= <-]; lia|]. destruct (group_pos l g i) as [j'|] eqn:E; [|done].
    intros [= <-]. apply IH in E. lia.
  - destruct (group_pos l g i) as [j'|] eqn:E; [|done]. intros [= <-]. apply IH in E. lia.
Qed.

Lemma locate_leaf_ok l g idx ing off : gsorted l -> ing <= off ->
  gc_locate_leaf (map fst l) idx ing g off = Nat.add idx <$> group_pos l g (off - ing).
Proof.
  intros Hs. revert idx ing. induction l as [|x l IH]; intros idx ing Hi; [done|].
  apply gsorted_cons in Hs as [Hs Hx]. cbn [map gc_locate_leaf group_pos]. fold (gof x). unfold in_group.
  destruct (kcmp (gof x) g) eqn:E.
  - case_decide as Ho.
    + subst. rewrite Nat.sub_diag. simpl. f_equal. lia.
    + rewrite IH by (done || lia). destruct (off - ing) as [|n] eqn:En; [lia|].
      replace (off - (ing + 1)) with n by lia. destruct (group_pos l g n); simpl; [|done]. f_equal. lia.
  - rewrite IH by done. destruct (group_pos l g (off - ing)); simpl; [|done]. f_equal. lia.
  - rewrite group_pos_none; [done|]. rewrite (size_none g l); [lia|]. eapply Forall_impl; [exact Hx|]. simpl. intros y Hy.
    apply kcmp_gt_lt in E. rewrite (lt_neq_sym g); [done|]. by eapply lt_le_trans.
Qed.

(** What a child offers: a right summary of a non-empty run. *)
Definition kid (c : tr) : Prop := flat c <> [] /\ summ (aug_of (A:=group_count G) c) (flat c) /\ sizes_ok (flat c).

Lemma kid_max c : kid c -> exists mg n, gc_max_group (aug_of (A:=group_count G) c) = Some (mg, n) /\
  last_is (flat c) mg /\ n = size mg (flat c).
Proof.
  intros (Hn & Hs & Ht). pose proof (max_group_summ _ _ Hs Ht) as H.
  destruct (gc_max_group (aug_of c)) as [[g n]|]; [|done]. by exists g, n.
Qed.

Lemma after_last l1 l2 g mg : gsorted (l1 ++ l2) -> last_is l1 mg -> kcmp mg g = Gt -> size g l2 = 0.
Proof.
  intros Hs Hl Hg. destruct l2 as [|y l2]; [done|].
  assert (first_is (y :: l2) (gof y)) as Hf by (exists y, l2; split; [done|apply ord_refl]).
  pose proof (meet_ok _ _ _ _ Hs Hl Hf) as M. apply (mt_size_r _ _ _ _ M). apply kcmp_gt_lt in Hg.
  eapply lt_le_trans; [done|apply M].
Qed.
Lemma below_last l g mg : gsorted l -> last_is l mg -> kcmp mg g = Lt -> size g l = 0.
Proof.
  intros Hs Hl Hg. apply size_none. eapply Forall_impl; [by apply (gs_last_ge l mg)|]. simpl. intros x Hx.
  rewrite (le_lt_trans (gof x) mg g) by done. done.
Qed.

Lemma locate_inner_ok (ch : list tr) idx g off : Forall kid ch -> gsorted (concat (map flat ch)) ->
  match gc_locate_inner (map aug_of ch) idx g off with
  | None => group_pos (concat (map flat ch)) g off = None
  | Some (i, q) => exists cl c cr, ch = cl ++ c :: cr /\ i = idx + length cl /\
      group_pos (concat (map flat ch)) g off = Nat.add (length (concat (map flat cl))) <$> group_pos (flat c) q.1 q.2
  end.
Proof.
  intros Hk. revert idx off. induction Hk as [|c ch Hc Hk IH]; intros idx off Hs; [done|].
  cbn [map concat] in *. cbn [gc_locate_inner].
  assert (gsorted (flat c) /\ gsorted (concat (map flat ch))) as [Hs1 Hs2] by (apply gsorted_app in Hs; tauto).
  assert (forall off, size g (flat c) <= off ->
    match gc_locate_inner (map aug_of ch) (S idx) g (off - size g (flat c)) with
    | None => group_pos (flat c ++ concat (map flat ch)) g off = None
    | Some (i, q) => exists cl d cr, c :: ch = cl ++ d :: cr /\ i = idx + length cl /\
        group_pos (flat c ++ concat (map flat ch)) g off = Nat.add (length (concat (map flat cl))) <$> group_pos (flat d) q.1 q.2
    end) as Hskip.
  { intros o Ho. specialize (IH (S idx) (o - size g (flat c)) Hs2). rewrite group_pos_app, decide_False by lia.
    destruct (gc_locate_inner _ _ _ _) as [[i q]|].
    - destruct IH as (cl & d & cr & -> & -> & ->). exists (c :: cl), d, cr. simpl. split; [done|]. split; [lia|].
      destruct (group_pos (flat d) q.1 q.2); simpl; [|done]. f_equal. rewrite app_length. lia.
    - by rewrite IH. }
  assert (forall off, off < size g (flat c) \/ size g (concat (map flat ch)) = 0 ->
    exists cl d cr, c :: ch = cl ++ d :: cr /\ idx = idx + length cl /\
        group_pos (flat c ++ concat (map flat ch)) g off = Nat.add (length (concat (map flat cl))) <$> group_pos (flat d) g off) as Hhere.
  { intros o Ho. exists [], c, ch. simpl. split; [done|]. split; [lia|]. rewrite group_pos_app.
    destruct (decide (o < size g (flat c))); [by destruct (group_pos (flat c) g o)|].
    rewrite (group_pos_none (flat c)) by lia. rewrite group_pos_none by lia. done. }
  destruct (kid_max c Hc) as (mg & n & Em & Hlast & Hn).
  destruct (aug_of c) as [|g1 c1|mn mx cnt] eqn:Ea; [done| |].
  - injection Em as -> ->. destruct (kcmp mg g) eqn:Eg.
    + assert (n = size g (flat c)) as -> by (by rewrite Hn, (size_eq mg g)). case_decide.
      * apply Hhere. by left.
      * apply Hskip. lia.
    + specialize (Hskip off). rewrite (below_last _ _ _ Hs1 Hlast Eg), Nat.sub_0_r in Hskip. apply Hskip. lia.
    + apply group_pos_none. rewrite size_app, (after_last _ _ _ _ Hs Hlast Eg).
      destruct Hc as (_ & Hsm & _). rewrite Ea in Hsm. destruct Hsm as (_ & Hall & _). rewrite size_none; [lia|].
      eapply Forall_impl; [exact Hall|]. simpl. intros x Hx. rewrite (ord_eq (gof x) mg) by done. by rewrite Eg.
  - simpl in Em. injection Em as ->. cbn [fst snd]. destruct (kcmp mg g) eqn:Eg.
    + assert (n = size g (flat c)) as -> by (by rewrite Hn, (size_eq mg g)). case_decide.
      * apply Hhere. by left.
      * apply Hskip. lia.
    + specialize (Hskip off). rewrite (below_last _ _ _ Hs1 Hlast Eg), Nat.sub_0_r in Hskip. apply Hskip. lia.
    + apply Hhere. right. by apply (after_last _ _ _ _ Hs Hlast Eg).
Qed.

(** Trees whose runs have sizes [GroupCount] handles. *)
Definition grouped (rl ri : nat) (t : tr) : Prop :=
  exists m b h, nshape rl ri m b h t /\ ascending (flat t) /\ sizes_ok (flat t).

Lemma grouped_kids rl ri id ks ch : 1 <= rl -> grouped rl ri (TNode id ks ch) ->
  Forall (grouped rl ri) ch /\ Forall kid ch.
Proof.
  intros Hrl (m & b & h & Hn & Ha & Ht). destruct h as [|h]; [done|]. destruct Hn as (_ & _ & Hs).
  rewrite flat_node in Ha, Ht. rewrite <- Forall_and. apply Forall_forall. intros c Hin.
  apply elem_of_list_split in Hin as (cl & cr & ->). apply chs_app in Hs as (_ & Hs & _).
  rewrite map_app, concat_app in Ha, Ht. simpl in Ha, Ht.
  assert (ascending (flat c)) as Hac by (apply asc_app in Ha as [_ Ha]; by apply asc_app in Ha as [Ha _]).
  assert (sizes_ok (flat c)) as Htc by (by eapply sizes_ok_mid; [by apply asc_gsorted|]).
  split.
  - eexists _, _, h. split; [by apply shape_nshape|]. done.
  - split; [by eapply shape_flat_nonnil|]. split; [|done]. by eapply aug_of_summary; [|apply group_summary|..].
Qed.

Lemma group_ref rl ri T h t g i : 1 <= rl -> InvAt (A:=group_count G) rl ri True T h t -> h <= MAX_DEPTH -> sizes_ok (flat t) ->
  match group_pos (flat t) g i with
  | None => get_ref_by_augmentation T (g, i) = Ok None
  | Some j => exists id kvs mA mB s1 s2 st off, reach t id kvs mA mB s1 s2 st /\
      get_ref_by_augmentation T (g, i) = Ok (Some (st, id, off)) /\
      off < length kvs /\ j = length (elems mA) + off
  end.
Proof.
  intros Hrl HI Hh Ht.
  refine (ref_by_aug_inv (grouped rl ri) (fun l q => group_pos l q.1 q.2) _ _ _ rl ri T h t (g, i) HI _ Hh).
  - intros id kvs q (m & b & h' & _ & Ha & _). rewrite flat_leaf in Ha. cbn [locate_in_leaf the_group_search group_search].
    unfold keysof. rewrite locate_leaf_ok by (by apply asc_gsorted || lia). rewrite Nat.sub_0_r. split.
    + by destruct (group_pos kvs q.1 q.2).
    + intros j. apply group_pos_lt.
  - intros id ks ch q Hg. cbn [locate_in_inner the_group_search group_search].
    destruct (grouped_kids _ _ _ _ _ Hrl Hg) as [_ Hk].
    assert (gsorted (concat (map flat ch))) as Hs.
    { destruct Hg as (m & b & h' & _ & Ha & _). rewrite flat_node in Ha. by apply asc_gsorted. }
    pose proof (locate_inner_ok ch 0 q.1 q.2 Hk Hs) as H. destruct (gc_locate_inner _ _ _ _) as [[j q']|]; done.
  - intros id ks ch Hg. by apply (grouped_kids _ _ _ _ _ Hrl Hg).
  - exists (rmin h), true, h. split; [apply HI|]. split; [by eapply inv_ascending|done].
Qed.

Lemma group_found b T l g i : reachable (A:=group_count G) b T l -> sizes_ok l ->
  match group_pos l g i with
  | None => get_ref_by_augmentation T (g, i) = Ok None
  | Some j => found b T l (g, i) j
  end.
Proof.
  intros Hr Ht. destruct (reachable_any True b T l Hr (fun _ => group_key_aug))
    as (ri & h & t & Hlow & Hri & HI & <- & _ & Hof & Hh).
  pose proof (group_ref (low b) ri T h t g i ltac:(lia) HI Hh Ht) as H. destruct (group_pos (flat t) g i) as [j|]; [|done].
  destruct H as (id & kvs & mA & mB & s1 & s2 & st & off & R & E & Ho & Hj).
  by exists True, ri, h, t, id, kvs, mA, mB, s1, s2, st, off.
Qed.

Lemma group_get_ok b T l g i : reachable (A:=group_count G) b T l -> sizes_ok l ->
  get_by_augmentation T (g, i) = Ok (group_members g l !! i).
Proof.
  intros Hr Ht. pose proof (group_found b T l g i Hr Ht) as H. rewrite group_pos_members.
  destruct (group_pos l g i) as [j|].
  - destruct (found_get _ _ _ _ _ H) as (kv & -> & ->). done.
  - unfold get_by_augmentation. by rewrite H.
Qed.

Lemma group_remove_ok b T l g i : reachable (A:=group_count G) b T l -> sizes_ok l -> removal_ok (A:=group_count G) b l ->
  exists T', remove_by_augmentation T (g, i) = Ok (group_members g l !! i, T') /\
    reachable b T' (match group_pos l g i with Some j => delete j l | None => l end).
Proof.
  intros Hr Ht Ho. pose proof (group_found b T l g i Hr Ht) as H. rewrite group_pos_members.
  destruct (group_pos l g i) as [j|].
  - destruct (found_remove _ _ _ _ _ Hr Ho H) as (kv & T' & -> & -> & Hr'). by exists T'.
  - exists T. unfold remove_by_augmentation. by rewrite H.
Qed.

(** ** [ExtractGroupSize] *)
Lemma egs_inner_ok g e (ch cl : list tr) ci prev el :
  Forall kid (cl ++ ch) -> gsorted (concat (map flat (cl ++ ch))) ->
  match list.last cl with
  | None => ci = 0 /\ prev = 0 /\ el = e /\ ch <> []
  | Some d => S ci = length cl /\ prev = size g (flat d) /\ el + prev = e + size g (concat (map flat cl))
  end ->
  exists (a : list tr) (c : tr) (z : list tr) (el' : nat), cl ++ ch = a ++ c :: z /\ el' = e + size g (concat (map flat a)) /\
    size g (concat (map flat z)) = 0 /\
    egs_inner_loop (map aug_of ch) (length cl) g ci prev el = Some (length a, el').
Proof.
  revert cl ci prev el. induction ch as [|c ch IH]; intros cl ci prev el Hk Hs Hst; cbn [map egs_inner_loop].
  - destruct cl as [|d cl _] using rev_ind; [by destruct Hst as (_ & _ & _ & ?)|]. rewrite last_snoc in Hst.
    destruct Hst as (Hci & -> & Hel). exists cl, d, [], el. rewrite app_nil_r. split; [done|].
    rewrite map_app, concat_app, size_app in Hel. simpl in Hel. rewrite app_nil_r in Hel.
    rewrite app_length in Hci. simpl in Hci. split; [lia|]. split; [done|]. by replace ci with (length cl) by lia.
  - assert (kid c) as Hkc by (apply Forall_app in Hk as [_ Hk]; by apply Forall_cons in Hk as [Hk _]).
    destruct (kid_max c Hkc) as (mg & n & Em & Hlast & Hn). rewrite Em.
    assert (gsorted (flat c)) as Hsc.
    { rewrite map_app, concat_app in Hs. apply gsorted_app in Hs as (_ & Hs & _). simpl in Hs. by apply gsorted_app in Hs as (Hs & _). }
    assert (el + prev = e + size g (concat (map flat cl)) /\ (prev = 0 \/ cl <> [])) as [Hel Hpr].
    { destruct cl as [|d cl _] using rev_ind.
      - destruct Hst as (_ & -> & -> & _). simpl. rewrite size_nil. split; [lia|by left].
      - rewrite last_snoc in Hst. split; [tauto|]. right. by destruct cl. }
    assert (cl ++ c :: ch = (cl ++ [c]) ++ ch) as Ecl by (by rewrite <- app_assoc).
    assert (length (cl ++ [c]) = S (length cl)) as Elen by (rewrite app_length; simpl; lia).
    assert (size g (concat (map flat (cl ++ [c]))) = size g (concat (map flat cl)) + size g (flat c)) as Esz.
    { rewrite map_app, concat_app, size_app. simpl. by rewrite app_nil_r. }
    destruct (kcmp mg g) eqn:Eg.
    + rewrite Ecl in *. destruct (IH (cl ++ [c]) (length cl) n (el + prev) Hk Hs) as (a & d & z & el' & E1 & E2 & E3 & E4).
      { rewrite last_snoc, Elen, Esz. split; [done|]. rewrite Hn, (size_eq mg g) by done. split; [done|]. lia. }
      exists a, d, z, el'. rewrite Elen in E4. done.
    + rewrite Ecl in *. assert (prev = 0 /\ size g (concat (map flat cl)) = 0) as [Hp0 Hc0].
      { assert (size g (concat (map flat cl)) = 0) as Hc0.
        { rewrite map_app, concat_app in Hs. apply gsorted_app in Hs as (Hs & _). rewrite map_app, concat_app in Hs. simpl in Hs.
          rewrite app_nil_r in Hs. assert (last_is (concat (map flat cl) ++ flat c) mg) as Hl by (by apply last_app).
          pose proof (below_last _ _ _ Hs Hl Eg) as H0. rewrite size_app in H0. lia. }
        split; [|done]. destruct cl as [|d cl _] using rev_ind; [tauto|]. rewrite last_snoc in Hst. destruct Hst as (_ & -> & _).
        rewrite map_app, concat_app, size_app in Hc0. simpl in Hc0. rewrite app_nil_r in Hc0. lia. }
      destruct (IH (cl ++ [c]) (length cl) prev el Hk Hs) as (a & d & z & el' & E1 & E2 & E3 & E4).
      { rewrite last_snoc, Elen, Esz, (below_last _ _ _ Hsc Hlast Eg). split; [done|]. split; [done|]. lia. }
      exists a, d, z, el'. rewrite Elen in E4. done.
    + exists cl, c, ch, (el + prev). split; [done|]. split; [done|]. split; [|done].
      rewrite map_app, concat_app in Hs. apply gsorted_app in Hs as (_ & Hs & _). simpl in Hs.
      by apply (after_last _ _ _ _ Hs Hlast Eg).
Qed.

Lemma egs_leaf_ok l g e : gsorted l -> egs_leaf_loop (map fst l) g e = e + size g l.
Proof.
  intros Hs. revert e. induction l as [|x l IH]; intros e; simpl; [rewrite size_nil; lia|].
  apply gsorted_cons in Hs as [Hs Hx]. rewrite size_cons. fold (gof x). unfold in_group. destruct (kcmp (gof x) g) eqn:E.
  - rewrite IH by done. lia.
  - rewrite IH by done. lia.
  - rewrite size_none; [lia|]. eapply Forall_impl; [exact Hx|]. simpl. intros y Hy. apply kcmp_gt_lt in E.
    rewrite (lt_neq_sym g); [done|]. by eapply lt_le_trans.
Qed.

Lemma egs_walk rl ri m b h t g e : 1 <= rl -> nshape rl ri m b h t -> ascending (flat t) -> sizes_ok (flat t) ->
  walk (extract_group_size g) (of_tr t) e = Ok (Some (e + size g (flat t))).
Proof.
  intros Hrl. revert m b t e. induction h as [|h IH]; intros m b [id kvs|id ks ch] e Hn Ha Ht; try done.
  - rewrite flat_leaf in *. cbn [walk of_tr visit_leaf extract_group_size]. f_equal. f_equal. by apply egs_leaf_ok, asc_gsorted.
  - destruct (grouped_kids rl ri id ks ch Hrl) as [_ Hk]; [by exists m, b, (S h)|].
    rewrite flat_node in *. destruct Hn as (_ & Hc & Hs).
    cbn [walk of_tr visit_inner extract_group_size].
    assert (map view_aug (map of_tr ch) = map (aug_of (A:=group_count G)) ch) as ->.
    { rewrite map_map. apply map_ext. apply of_tr_aug. }
    destruct (egs_inner_ok g e ch [] 0 0 e Hk) as (a & c & z & el' & E1 & E2 & E3 & E4); [by apply asc_gsorted|by destruct ch|].
    simpl in E1, E4. rewrite E4. subst ch el'. cbv iota beta.
    rewrite map_map, map_app. rewrite app_nth2 by (rewrite map_length; lia). rewrite map_length, Nat.sub_diag. simpl nth.
    apply chs_app in Hs as (_ & Hs & _). rewrite map_app, concat_app in *. simpl in Ha, Ht |- *.
    assert (ascending (flat c)) as Hac by (apply asc_app in Ha as [_ Ha]; by apply asc_app in Ha as [Ha _]).
    assert (sizes_ok (flat c)) as Htc by (by eapply sizes_ok_mid; [by apply asc_gsorted|]).
    rewrite (IH _ _ c _ (proj1 (shape_nshape _ _ _ _ _) Hs) Hac Htc). f_equal. f_equal.
    rewrite !size_app, E3. lia.
Qed.

Lemma group_extract_ok b T l g : reachable (A:=group_count G) b T l -> sizes_ok l ->
  descend_visit T (extract_group_size g) 0 = Ok (Some (size g l)).
Proof.
  intros Hr Ht. destruct (reachable_any True b T l Hr (fun _ => group_key_aug)) as (ri & h & t & Hlow & _ & HI & <- & Ha & _).
  rewrite (visit_ok (low b) ri _ _ h t 0 HI). rewrite (egs_walk (low b) ri (rmin h) true h); [done|lia|apply HI|done|done].
Qed.

(** ** Rank *)
Lemma fold_rev_ok mg (cl : list tr) sz : Forall kid cl -> gsorted (concat (map flat cl)) ->
  Forall (fun x => kcmp (gof x) mg <> Gt) (concat (map flat cl)) ->
  gc_fold_rev (map (aug_of (A:=group_count G)) (rev cl)) mg sz = sz + size mg (concat (map flat cl)).
Proof.
  revert sz. induction cl as [|c cl IH] using rev_ind; intros sz Hk Hs Hle.
  - simpl. rewrite size_nil. lia.
  - rewrite rev_app_distr. cbn [rev app map gc_fold_rev].
    apply Forall_app in Hk as [Hk Hc]. apply Forall_cons in Hc as [Hc _].
    rewrite map_app, concat_app in *. simpl in Hs, Hle |- *. rewrite app_nil_r in *.
    destruct (kid_max c Hc) as (g & n & -> & Hlast & ->).
    assert (gsorted (concat (map flat cl)) /\ gsorted (flat c)) as [Hs1 Hs2] by (apply gsorted_app in Hs; tauto).
    apply Forall_app in Hle as [Hle1 Hle2]. rewrite size_app. destruct (group_eqb g mg) eqn:E.
    + rewrite IH by done. apply eqb_true in E. rewrite (size_eq g mg) by done. lia.
    + assert (kcmp g mg = Lt) as Hlt.
      { apply eqb_false_lt; [done|]. destruct Hlast as (l' & x & El & Ex). rewrite El in Hle2.
        apply Forall_app in Hle2 as [_ Hx]. apply Forall_cons in Hx as [Hx _].
        intros Hgt. apply Hx. rewrite (ord_eq (gof x) g) by done. done. }
      assert (last_is (concat (map flat cl) ++ flat c) g) as Hl2 by (by apply last_app).
      pose proof (below_last _ _ _ Hs Hl2 Hlt) as H0. rewrite size_app in H0. lia.
Qed.

Lemma fold_inner_ok (cl : list tr) rank : cl <> [] -> Forall kid cl -> gsorted (concat (map flat cl)) ->
  exists mg, last_is (concat (map flat cl)) mg /\
    gc_fold_inner rank (map (aug_of (A:=group_count G)) cl) = Some (
      match rank with
      | Some (g, c) => if group_eqb g mg then (g, c + size mg (concat (map flat cl))) else (mg, size mg (concat (map flat cl)))
      | None => (mg, size mg (concat (map flat cl)))
      end).
Proof.
  intros Hne Hk Hs. destruct cl as [|c cl _] using rev_ind; [done|]. unfold gc_fold_inner. rewrite <- map_rev, rev_app_distr.
  cbn [rev app map]. apply Forall_app in Hk as [Hk Hc]. apply Forall_cons in Hc as [Hc _].
  rewrite map_app, concat_app in *. simpl in Hs |- *. rewrite app_nil_r in *.
  destruct (kid_max c Hc) as (g & n & -> & Hlast & ->). exists g. split; [by apply last_app|].
  assert (gsorted (concat (map flat cl))) as Hs1 by (apply gsorted_app in Hs; tauto).
  rewrite fold_rev_ok; [|done|done|].
  - rewrite size_app, (Nat.add_comm (size g (flat c))). destruct rank as [[g' c']|]; [|done]. by destruct (group_eqb g' g).
  - pose proof (gs_last_ge _ g Hs (last_app _ _ _ Hlast)) as H. by apply Forall_app in H as [H _].
Qed.

(** What a fold knows about the entries before the leaf. *)
Definition rank_inv_at (exact : Prop) (rank : option (G * nat)) (l : list entry) : Prop :=
  match rank with
  | None => exact -> l = []
  | Some (g, c) => last_is l g /\ c <= size g l /\ (exact -> c = size g l)
  end.

Lemma fold_step_ok (E : Prop) (cl : list tr) rank l0 : Forall kid cl -> gsorted (l0 ++ concat (map flat cl)) ->
  rank_inv_at E rank l0 -> (E -> l0 = []) ->
  rank_inv_at E (gc_fold_inner rank (map (aug_of (A:=group_count G)) cl)) (l0 ++ concat (map flat cl)).
Proof.
  intros Hk Hs Hr He. destruct (decide (cl = [])) as [->|Hne].
  - simpl. rewrite app_nil_r. exact He.
  - assert (gsorted (concat (map flat cl))) as Hs1 by (apply gsorted_app in Hs; tauto).
    destruct (fold_inner_ok cl rank Hne Hk Hs1) as (mg & Hl & ->).
    pose proof (last_app l0 _ _ Hl) as Hl'. destruct rank as [[g c]|].
    + destruct Hr as (H1 & H2 & H3). destruct (group_eqb g mg) eqn:Eg.
      * apply eqb_true in Eg. cbn [rank_inv_at]. rewrite size_app, (size_eq mg g) by (by apply kcmp_eq_sym).
        split; [eapply last_eq; [by apply kcmp_eq_sym|done]|]. split; [lia|]. intros HE. rewrite (H3 HE). done.
      * cbn [rank_inv_at]. rewrite size_app. split; [done|]. split; [lia|]. intros HE. rewrite (He HE), size_nil. lia.
    + cbn [rank_inv_at]. rewrite size_app. split; [done|]. split; [lia|]. intros HE. rewrite (He HE), size_nil. lia.
Qed.

Lemma fold_path_weak k path rank l0 : Forall kid (concat path) -> gsorted (l0 ++ concat (map flat (concat path))) ->
  rank_inv_at False rank l0 ->
  rank_inv_at False (fold_path (R:=option (G * nat)) k rank path) (l0 ++ concat (map flat (concat path))).
Proof.
  revert rank l0. induction path as [|cl path IH]; intros rank l0 Hk Hs Hr.
  - simpl. by rewrite app_nil_r.
  - cbn [concat] in *. rewrite map_app, concat_app, (app_assoc l0) in *. apply Forall_app in Hk as [Hk1 Hk2].
    apply IH; [done|done|]. apply fold_step_ok; [done| |done|done]. by apply gsorted_app in Hs as [Hs _].
Qed.

Lemma fold_path_ok k path : Forall kid (concat path) -> gsorted (concat (map flat (concat path))) ->
  rank_inv_at (length path <= 1) (fold_path (R:=option (G * nat)) k None path) (concat (map flat (concat path))).
Proof.
  intros Hk Hs. destruct path as [|cl [|cl' path]].
  - done.
  - cbn [concat] in *. rewrite app_nil_r in *. apply (fold_step_ok _ cl None []); [done|done|done|done].
  - pose proof (fold_path_weak k _ None [] Hk Hs ltac:(done)) as H. unfold rank_inv_at in *. cbn [app length] in *.
    destruct (fold_path _ _ _) as [[g c]|]; [destruct H as (H1 & H2 & _); split_and!; [done|done|lia]|lia].
Qed.

Lemma count_in_ok g l : gc_count_in (map fst l) g = size g l.
Proof.
  induction l as [|x l IH]; simpl; [by rewrite size_nil|]. rewrite IH, size_cons. unfold group_eqb, in_group.
  by destruct (kcmp _ _).
Qed.

Lemma grank_app k (l1 l2 : list entry) : group_rank_of (G:=G) k (l1 ++ l2) = group_rank_of (G:=G) k l1 + group_rank_of (G:=G) k l2.
Proof. unfold group_rank_of, group_members. by rewrite List.filter_app, rank_app. Qed.
Lemma grank_lt k (l : list entry) : Forall (fun x => kcmp x.1 k = Lt) l -> group_rank_of (G:=G) k l = size (from_ref k) l.
Proof.
  intros H. unfold group_rank_of. rewrite rank_lt; [done|]. unfold group_members. apply Forall_forall. intros x Hx.
  apply elem_of_list_In, filter_In in Hx as [Hx _]. rewrite Forall_forall in H. by apply H, elem_of_list_In.
Qed.
Lemma grank_ge k (l : list entry) : Forall (fun x => kcmp x.1 k <> Lt) l -> group_rank_of (G:=G) k l = 0.
Proof.
  intros H. unfold group_rank_of. rewrite rank_ge; [done|]. unfold group_members. apply Forall_forall. intros x Hx.
  apply elem_of_list_In, filter_In in Hx as [Hx _]. rewrite Forall_forall in H. by apply H, elem_of_list_In.
Qed.

(** The entries of the leaf before the key. *)
Lemma leaf_before k (a : list entry) x (kvs' : list entry) : gsorted (x :: kvs') -> Forall (fun x => kcmp x.1 k = Lt) a ->
  (exists z : list entry, x :: kvs' = a ++ z) -> kcmp (gof x) (from_ref k) <> Lt -> length a = size (from_ref k) a.
Proof.
  intros Hs Ha [z Hz] Hx. symmetry. apply size_all. destruct a as [|y a]; [done|]. injection Hz as <- ->.
  apply gsorted_cons in Hs as [_ Hs]. apply Forall_app in Hs as [Hs _].
  assert (forall w : entry, kcmp w.1 k = Lt -> kcmp (gof w) (from_ref k) <> Gt) as Hle.
  { intros w Hw. apply group_mono. by rewrite Hw. }
  apply Forall_cons in Ha as [Hy Ha]. constructor.
  - apply le_antisym; [by apply Hle|by apply not_gt].
  - apply Forall_forall. intros w Hw. rewrite Forall_forall in Ha, Hs. apply le_antisym; [by apply Hle, Ha|].
    eapply le_trans; [by apply not_gt|by apply Hs].
Qed.

Lemma fold_leaf_ok E k rank (l0 kvs a z : list entry) r : gsorted (l0 ++ kvs) -> kvs = a ++ z ->
  Forall (fun x => kcmp x.1 k = Lt) l0 -> Forall (fun x => kcmp x.1 k = Lt) a ->
  r = ROk (length a) \/ r = RErr (length a) ->
  (kvs = [] -> r = RErr (length a) /\ l0 = []) ->
  rank_inv_at E rank l0 ->
  exists n, n <= size (from_ref k) l0 + size (from_ref k) a /\ (E -> n = size (from_ref k) l0 + size (from_ref k) a) /\
  gc_fold_leaf k rank r (map fst kvs) = match r with ROk _ => ROk (Some (from_ref k, n)) | RErr _ => RErr (Some (from_ref k, n)) end.
Proof.
  intros Hs Hz H0 Ha Hr Hnil Hi.
  assert (forall w : entry, kcmp w.1 k = Lt -> kcmp (gof w) (from_ref k) <> Gt) as Hle.
  { intros w Hw. apply group_mono. by rewrite Hw. }
  assert (gsorted kvs) as Hsk by (apply gsorted_app in Hs; tauto).
  destruct kvs as [|x kvs'].
  { destruct Hnil as [-> ->]; [done|]. symmetry in Hz. apply app_eq_nil in Hz as [-> ->]. exists 0. rewrite !size_nil. split_and!; [lia|lia|done]. }
  cbn [map gc_fold_leaf]. fold (gof x).
  assert (gc_count_in (take (length a) (x.1 :: map fst kvs')) (from_ref k) = size (from_ref k) a) as Ec.
  { change (x.1 :: map fst kvs') with (map fst (x :: kvs')). rewrite Hz, map_app.
    rewrite take_app_alt by (by rewrite map_length). apply count_in_ok. }
  assert (Hcase : forall g off (m : nat), (group_eqb g (from_ref k) = true -> length a + off = m) ->
    (group_eqb g (from_ref k) = false -> size (from_ref k) a = m) ->
    (if group_eqb g (from_ref k) then
        match r with
        | ROk idx => ROk (Some (from_ref k, idx + off))
        | RErr idx => RErr (Some (from_ref k, idx + off))
        end
      else
        let slot_idx := match r with ROk i => i | RErr i => i end in
        let c := gc_count_in (take slot_idx (x.1 :: map fst kvs')) (from_ref k) in
        match r with
        | ROk _ => ROk (Some (from_ref k, c))
        | RErr _ => RErr (Some (from_ref k, c))
        end) = match r with ROk _ => ROk (Some (from_ref k, m)) | RErr _ => RErr (Some (from_ref k, m)) end).
  { intros g off m Ht Hf. destruct (group_eqb g (from_ref k)).
    - rewrite <- (Ht eq_refl). by destruct Hr as [-> | ->].
    - rewrite <- (Hf eq_refl), <- Ec. by destruct Hr as [-> | ->]. }
  destruct rank as [[g c]|].
  - destruct Hi as (Hl & Hc & HE).
    exists (if group_eqb g (from_ref k) then length a + c else size (from_ref k) a).
    assert (group_eqb g (from_ref k) = true -> length a = size (from_ref k) a) as H1.
    { intros Eg. apply eqb_true in Eg. eapply (leaf_before k a x kvs'); [done|done|by exists z|].
      destruct Hl as (l' & y & -> & Hy). rewrite <- app_assoc in Hs. apply gsorted_app in Hs as (_ & Hs & _).
      cbn [app] in Hs. apply gsorted_cons in Hs as [_ Hs]. apply Forall_cons in Hs as [Hs _].
      apply not_gt. intros Hgt. apply Hs. rewrite (ord_eq (gof y) g) by done. rewrite (ord_eq g (from_ref k)) by done. done. }
    assert (group_eqb g (from_ref k) = false -> size (from_ref k) l0 = 0) as H2.
    { intros Eg. assert (gsorted l0) as Hs0 by (apply gsorted_app in Hs; tauto). eapply (below_last l0 _ g); [done|done|].
      apply eqb_false_lt; [done|]. destruct Hl as (l' & y & -> & Hy). apply Forall_app in H0 as [_ H0]. apply Forall_cons in H0 as [H0 _].
      specialize (Hle _ H0). intros Hgt. apply Hle. rewrite (ord_eq (gof y) g) by done. done. }
    destruct (group_eqb g (from_ref k)) eqn:Eg.
    + specialize (H1 eq_refl). apply eqb_true in Eg. rewrite (size_eq g (from_ref k) l0) in * by done. split; [lia|]. split; [intros He; rewrite (HE He); lia|].
      apply eqb_true in Eg. pose proof (Hcase g c (length a + c)) as Hx. rewrite Eg in Hx. by apply Hx.
    + specialize (H2 eq_refl). split; [lia|]. split; [lia|]. pose proof (Hcase g c (size (from_ref k) a)) as Hx. rewrite Eg in Hx. by apply Hx.
  - exists (size (from_ref k) a). split; [lia|]. split; [intros He; rewrite (Hi He), size_nil; lia|].
    apply Hcase; [|done]. intros Eg. apply eqb_true in Eg. rewrite Nat.add_0_r. eapply (leaf_before k a x kvs'); [done|done|by exists z|].
    by rewrite Eg.
Qed.

Lemma group_rank_ok b T l k : reachable (A:=group_count G) b T l -> sizes_ok l ->
  exists n, n <= group_rank_of (G:=G) k l /\ (length l < 272 -> n = group_rank_of (G:=G) k l) /\
  rank_by_augmentation T k = Ok (match spec_get (probe_key k) l with
    | Some _ => ROk (Some (from_ref k : G, n)) | None => RErr (Some (from_ref k : G, n)) end).
Proof.
  intros Hr Ht. destruct (reachable_any True b T l Hr (fun _ => group_key_aug)) as (ri & h & t & Hlow & _ & HI & <- & Hasc & _).
  destruct (rank_inv (low b) ri T h t k HI) as (path & id & kvs & mA & mB & s1 & s2 & st & r & R & FA & FB & Hlen & Ep & Hsh & Hx & ->).
  cbn [fold_leaf initial_value the_group_rank group_rank].
  assert (flat t = elems mA ++ kvs ++ elems mB) as Ef.
  { by rewrite <- elems_trav, (reach_trav _ _ _ _ _ _ _ _ R), !elems_app, elems_emark. }
  assert (gsorted (elems mA ++ kvs)) as Hs.
  { pose proof (asc_gsorted _ Hasc) as Hs. rewrite Ef, app_assoc in Hs. by apply gsorted_app in Hs as [Hs _]. }
  assert (Forall kid (concat path)) as Hk.
  { apply Forall_forall. intros c Hc. rewrite Forall_forall in Hsh. destruct (Hsh c Hc) as (b' & h' & Hh' & Hs').
    assert (exists u v, elems mA = u ++ flat c ++ v) as (u & v & Eu).
    { apply elem_of_list_split in Hc as (p1 & p2 & Ec). rewrite <- Ep, Ec, map_app, concat_app. simpl. eauto. }
    rewrite Ef, Eu, <- !app_assoc in Hasc, Ht.
    split; [eapply shape_flat_nonnil; [|done]; lia|]. split.
    - eapply (aug_of_summary (low b) ri ltac:(lia) summ group_summary); [exact Hs'|].
      apply asc_app in Hasc as [_ Hasc]. by apply asc_app in Hasc as [Hasc _].
    - eapply sizes_ok_mid; [by apply asc_gsorted|exact Ht]. }
  assert (gsorted (elems mA)) as HsA by (apply gsorted_app in Hs; tauto).
  pose proof (fold_path_ok k path Hk ltac:(by rewrite Ep)) as Hf. rewrite Ep, Hlen in Hf.
  assert (length (flat t) < 272 -> h <= 1) as Hh1.
  { intros Hl. destruct h as [|[|h]]; [lia|lia|]. pose proof (inv_shape _ _ _ _ _ _ HI) as Hn.
    pose proof (root_size _ _ (S h) t Hn) as Hs2. exfalso.
    assert (16 * 17 ^ 1 <= 16 * 17 ^ N.of_nat (S h))%N by (apply N.mul_le_mono_l, N.pow_le_mono_r; lia). lia. }
  assert (kvs = [] -> elems mA = []) as Hnil.
  { intros ->. destruct h as [|h].
    - destruct path; [|done]. by rewrite <- Ep.
    - pose proof (nshape_nonempty (low b) ri ltac:(lia) _ _ _ _ (inv_shape _ _ _ _ _ _ HI)) as Hne.
      destruct (reach_seq _ _ _ _ _ _ _ _ R) as (Eseq & _). rewrite Eseq in Hne. apply Forall_app in Hne as [_ Hne].
      by apply Forall_cons in Hne as [Hne _]. }
  assert (exists a z : list entry, kvs = a ++ z /\ Forall (fun x => kcmp x.1 k = Lt) a /\ Forall (fun x => kcmp x.1 k <> Lt) z /\
    ((r = ROk (length a) /\ kvs <> [] /\ exists w : V, spec_get (probe_key k) (flat t) = Some w) \/
      r = RErr (length a) /\ spec_get (probe_key k) (flat t) = None)) as (a & z & Hkv & Ha & Hz & Hrr).
  { rewrite Ef. rewrite spec_get_mid by (eapply Forall_impl; [done|]; unfold probe_key; simpl; intros ? ->; done).
    destruct r as [i|i].
    - destruct Hx as (a & k' & v & b' & -> & -> & Ha & Hkk & Hb). exists a, ((k', v) :: b'). split; [done|]. split; [done|].
      split; [constructor; [simpl; by rewrite Hkk|eapply Forall_impl; [exact Hb|]; simpl; intros ? ->; done]|]. left.
      split; [done|]. split; [by destruct a|]. rewrite (proj2 (spec_remove_hit (probe_key k) a k' v b' Ha Hkk)). eauto.
    - destruct Hx as (a & b' & -> & -> & Ha & Hb). exists a, b'. split; [done|]. split; [done|].
      split; [eapply Forall_impl; [exact Hb|]; simpl; intros ? ->; done|]. right. split; [done|].
      apply (spec_none (probe_key k)). apply Forall_app; split; eapply Forall_impl; [exact Ha| |exact Hb|]; unfold probe_key; simpl; intros ? ->; done. }
  assert (r = ROk (length a) \/ r = RErr (length a)) as Hr1 by (destruct Hrr as [(-> & _) | (-> & _)]; auto).
  assert (kvs = [] -> r = RErr (length a) /\ elems mA = []) as Hr2.
  { intros E. split; [|auto]. destruct Hrr as [(_ & ? & _) | (-> & _)]; done. }
  destruct (fold_leaf_ok (h <= 1) k _ (elems mA) kvs a z r Hs Hkv FA Ha Hr1 Hr2 Hf) as (n & Hn1 & Hn2 & Hn3).
  assert (group_rank_of (G:=G) k (flat t) = size (from_ref k) (elems mA) + size (from_ref k) a) as Eg.
  { rewrite Ef, Hkv, !grank_app, (grank_lt k (elems mA)), (grank_lt k a), (grank_ge k z) by done.
    rewrite (grank_ge k (elems mB)) by (eapply Forall_impl; [exact FB|]; simpl; intros ? ->; done). lia. }
  exists n. rewrite Eg. split; [done|]. split; [auto|]. unfold keysof. cbn [initial_value fold_leaf the_group_rank group_rank]. rewrite Hn3.
  destruct Hrr as [(-> & _ & x & ->) | (-> & ->)]; done.
Qed.

End GroupProof.
