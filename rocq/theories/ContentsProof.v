(** The list functions of Spec.v meet the vocabulary of Contents.v. *)
From stdpp Require Import list sorting.
From Verif Require Import Base Spec Contents Order.

Section ContentsProof.
Context {K V : Type} {KO : KeyOps K} {PF : Profile} {OL : OrdLaws K}.
Implicit Types (l : list (K * V)) (p : probe K).

Lemma asc_cons x l : ascending (x :: l) <-> ascending l /\ Forall (fun y => kcmp x.1 y.1 = Lt) l.
Proof. unfold ascending. split; [by intros H; inversion H|]. intros [? ?]. by constructor. Qed.

Lemma spec_get_lookup p l : lookup_is p l (spec_get p l).
Proof.
  induction l as [|[k v] l IH]; simpl; [intros k v H; by apply elem_of_nil in H|].
  destruct (p k) eqn:E; simpl.
  - exists k. split; [by left|done].
  - destruct (spec_get p l) as [w|]; simpl in *.
    + destruct IH as (k' & H1 & H2). exists k'. split; [by right|done].
    + intros k' v' [[= -> ->]|H]%elem_of_cons; [by rewrite E|by eapply IH].
  - destruct (spec_get p l) as [w|]; simpl in *.
    + destruct IH as (k' & H1 & H2). exists k'. split; [by right|done].
    + intros k' v' [[= -> ->]|H]%elem_of_cons; [by rewrite E|by eapply IH].
Qed.

(** In a map the answer is unique. *)
Lemma asc_unique l p k v k' v' : ascending l -> probe_ok p -> (k, v) ∈ l -> (k', v') ∈ l -> p k = Eq -> p k' = Eq ->
  k = k' /\ v = v'.
Proof.
  intros Ha Hp. induction l as [|x l IH]; intros H1 H2 E1 E2; [by apply elem_of_nil in H1|].
  apply asc_cons in Ha as [Ha Hx]. rewrite Forall_forall in Hx.
  apply elem_of_cons in H1 as [<-|H1], H2 as [Ex|H2].
  - by inversion Ex.
  - specialize (Hx _ H2). simpl in Hx. rewrite (probe_mono _ Hp k k') in E1; [done|done|by rewrite E2].
  - subst x. specialize (Hx _ H1). simpl in Hx. rewrite (probe_mono _ Hp k' k) in E2; [done|done|by rewrite E1].
  - by apply IH.
Qed.
Lemma lookup_unique l p o o' : ascending l -> probe_ok p -> lookup_is p l o -> lookup_is p l o' -> o = o'.
Proof.
  intros Ha Hp. destruct o as [v|], o' as [v'|]; simpl; [..|done].
  - intros (k & H1 & E1) (k' & H2 & E2). f_equal. by eapply (asc_unique l p k v k' v').
  - intros (k & H1 & E1) H. by destruct (H _ _ H1).
  - intros H (k & H1 & E1). by destruct (H _ _ H1).
Qed.

Lemma spec_insert_is k v l : ascending l -> insert_is k v l (spec_insert k v l).
Proof.
  unfold insert_is. induction l as [|[k0 v0] l IH]; intros Ha k' v'; simpl.
  - rewrite elem_of_list_singleton. split.
    + intros [= -> ->]. right. split; [apply ord_refl|]. split; [done|]. right. split; [done|].
      intros k'' w H. by apply elem_of_nil in H.
    + intros [[_ H]|(E & -> & [[w H]|[-> _]])]; [by apply elem_of_nil in H|by apply elem_of_nil in H|done].
  - apply asc_cons in Ha as [Ha Hx]. rewrite Forall_forall in Hx. destruct (kcmp k0 k) eqn:E.
    + rewrite !elem_of_cons. split.
      * intros [[= -> ->]|H].
        -- right. split; [done|]. split; [done|]. left. exists v0. rewrite elem_of_cons. by left.
        -- left. split; [|by right]. specialize (Hx _ H). simpl in Hx. rewrite (ord_eq k0 k) in Hx by done.
           apply kcmp_gt_lt in Hx. by rewrite Hx.
      * intros [[Hn [[= -> ->]|H]]|(E' & -> & [[w H]|[-> H]])].
        -- done.
        -- by right.
        -- apply elem_of_cons in H as [[= -> ->]|H]; [by left|]. specialize (Hx _ H). simpl in Hx.
           rewrite (ord_eq k0 k) in Hx by done. apply kcmp_eq_sym in E'. by rewrite E' in Hx.
        -- exfalso. apply (H k0 v0); [by apply elem_of_cons; left|done].
    + rewrite elem_of_cons. rewrite IH by done. split.
      * intros [[= -> ->]|[[Hn H]|(E' & -> & [[w H]|[-> H]])]].
        -- left. split; [by rewrite E|]. by left.
        -- left. split; [done|]. by right.
        -- right. split; [done|]. split; [done|]. left. exists w. by right.
        -- right. split; [done|]. split; [done|]. right. split; [done|].
           intros k'' w [[= -> ->]|H']%elem_of_cons; [by rewrite E|by eapply H].
      * intros [[Hn [[= -> ->]|H]%elem_of_cons]|(E' & -> & [[w H]|[-> H]])].
        -- by left.
        -- right. by left.
        -- apply elem_of_cons in H as [[= -> ->]|H]; [by rewrite E in E'|]. right. right. split; [done|]. split; [done|]. left. by exists w.
        -- right. right. split; [done|]. split; [done|]. right. split; [done|]. intros k'' w H'. apply (H k'' w). by right.
    + assert (forall k'' w, (k'', w) ∈ ((k0, v0) :: l) -> kcmp k'' k = Gt) as Hgt.
      { intros k'' w [[= -> ->]|H]%elem_of_cons; [done|]. specialize (Hx _ H). simpl in Hx.
        apply kcmp_gt_lt in E. apply kcmp_gt_lt. by eapply ord_trans. }
      rewrite elem_of_cons. split.
      * intros [[= -> ->]|H].
        -- right. split; [apply ord_refl|]. split; [done|]. right. split; [done|]. intros k'' w H. by rewrite (Hgt _ _ H).
        -- left. split; [|done]. by rewrite (Hgt _ _ H).
      * intros [[Hn H]|(E' & -> & [[w H]|[-> H]])]; [by right| |by left]. by rewrite (Hgt _ _ H) in E'.
Qed.

Lemma spec_remove_is p l : ascending l -> probe_ok p -> remove_is p l (spec_remove p l).
Proof.
  intros Ha Hp. unfold remove_is. induction l as [|[k v] l IH]; intros k' v'; simpl.
  { split; [intros H; by apply elem_of_nil in H|intros [H _]; by apply elem_of_nil in H]. }
  apply asc_cons in Ha as [Ha Hx]. rewrite Forall_forall in Hx. rewrite elem_of_cons.
  assert (p k = Eq -> forall k' v', (k', v') ∈ l -> p k' <> Eq) as Hne.
  { intros E k'' v'' H E'. specialize (Hx _ H). simpl in Hx. rewrite (probe_mono _ Hp k k'') in E; [done|done|by rewrite E']. }
  destruct (p k) eqn:E.
  - split; [intros H; split; [by right|by eapply Hne]|]. intros [[[= -> ->]|H] H']; done.
  - rewrite elem_of_cons, IH by done. split.
    + intros [[= -> ->]|[H1 H2]]; [split; [by left|by rewrite E]|split; [by right|done]].
    + intros [[[= -> ->]|H] H']; [by left|by right].
  - rewrite elem_of_cons, IH by done. split.
    + intros [[= -> ->]|[H1 H2]]; [split; [by left|by rewrite E]|split; [by right|done]].
    + intros [[[= -> ->]|H] H']; [by left|by right].
Qed.

Lemma spec_update_is p f l : ascending l -> probe_ok p -> update_is p f l (spec_update p f l).
Proof.
  intros Ha Hp. unfold update_is. induction l as [|[k v] l IH]; intros k' v'; simpl.
  { split; [intros H; by apply elem_of_nil in H|intros [[_ H]|(_ & w & H & _)]; by apply elem_of_nil in H]. }
  apply asc_cons in Ha as [Ha Hx]. rewrite Forall_forall in Hx.
  assert (p k = Eq -> forall k' v', (k', v') ∈ l -> p k' <> Eq) as Hne.
  { intros E k'' v'' H E'. specialize (Hx _ H). simpl in Hx. rewrite (probe_mono _ Hp k k'') in E; [done|done|by rewrite E']. }
  assert (p k <> Eq -> (k', v') ∈ ((k, v) :: spec_update p f l) <->
    (p k' <> Eq /\ (k', v') ∈ ((k, v) :: l)) \/ (p k' = Eq /\ exists w, (k', w) ∈ ((k, v) :: l) /\ v' = f w)) as Hmiss.
  { intros E. rewrite elem_of_cons, IH by done. split.
    - intros [[= -> ->]|[[H1 H2]|(H1 & w & H2 & ->)]].
      + left. split; [done|by left].
      + left. split; [done|by right].
      + right. split; [done|]. exists w. split; [by right|done].
    - intros [[H1 H2]|(H1 & w & H2 & ->)]; apply elem_of_cons in H2 as [[= -> ->]|H2].
      + by left.
      + right. by left.
      + done.
      + right. right. eauto. }
  destruct (p k) eqn:E; [|by apply Hmiss..]. clear Hmiss. rewrite elem_of_cons. split.
  - intros [[= -> ->]|H].
    + right. split; [done|]. exists v. split; [by left|done].
    + left. split; [by eapply Hne|by right].
  - intros [[H1 H2]|(H1 & w & H2 & ->)]; apply elem_of_cons in H2 as [[= -> ->]|H2].
    + done.
    + by right.
    + by left.
    + by destruct (Hne eq_refl _ _ H2).
Qed.

Lemma head_least l : ascending l -> least_is l (head l).
Proof.
  destruct l as [|x l]; [done|]. intros [_ H]%asc_cons. simpl. split; [by left|]. rewrite Forall_forall in H.
  intros y [->|Hy]%elem_of_cons; [by rewrite ord_refl|by rewrite H].
Qed.
Lemma last_greatest l : ascending l -> greatest_is l (list.last l).
Proof.
  induction l as [|x l IH]; [done|]. intros [Ha H]%asc_cons. rewrite Forall_forall in H. specialize (IH Ha).
  rewrite last_cons. destruct (list.last l) as [z|] eqn:E; simpl in *.
  - destruct IH as [H1 H2]. split; [by right|]. intros y [->|Hy]%elem_of_cons; [|auto].
    specialize (H _ H1). apply kcmp_gt_lt in H. by rewrite H.
  - subst l. split; [by left|]. intros y [->|Hy]%elem_of_cons; [by rewrite ord_refl|by apply elem_of_nil in Hy].
Qed.

Lemma spec_succ_above k l : ascending l -> above_is k l (spec_succ k l).
Proof.
  induction l as [|[k0 v0] l IH]; [intros _ y H; by apply elem_of_nil in H|]. intros [Ha H]%asc_cons.
  rewrite Forall_forall in H. specialize (IH Ha). simpl.
  assert (kcmp k0 k <> Gt -> above_is k ((k0, v0) :: l) (spec_succ k l)) as Hskip.
  { intros E. destruct (spec_succ k l) as [x|]; simpl in *.
    - destruct IH as (H1 & H2 & H3). split; [by right|]. split; [done|]. intros y [->|Hy]%elem_of_cons; [done|auto].
    - intros y [->|Hy]%elem_of_cons; [done|auto]. }
  destruct (kcmp k0 k) eqn:E; [by apply Hskip..|]. simpl. split; [by left|]. split; [done|].
  intros y [->|Hy]%elem_of_cons _; [by rewrite ord_refl|]. specialize (H _ Hy). simpl in H. by rewrite H.
Qed.

Lemma spec_pred_below k l : ascending l -> below_is k l (spec_pred k l).
Proof.
  induction l as [|[k0 v0] l IH]; [intros _ y H; by apply elem_of_nil in H|]. intros [Ha H]%asc_cons.
  rewrite Forall_forall in H. specialize (IH Ha). simpl.
  assert (kcmp k0 k <> Lt -> below_is k ((k0, v0) :: l) None) as Hno.
  { intros E. simpl. intros y [->|Hy]%elem_of_cons; [done|]. specialize (H _ Hy). simpl in H.
    intros H'. apply E. by eapply ord_trans. }
  destruct (kcmp k0 k) eqn:E; [by apply Hno| |by apply Hno].
  destruct (spec_pred k l) as [x|]; simpl in *.
  - destruct IH as (H1 & H2 & H3). split; [by right|]. split; [done|]. intros y [->|Hy]%elem_of_cons; [|auto].
    intros _. specialize (H _ H1). simpl in *. apply kcmp_gt_lt in H. by rewrite H.
  - split; [by left|]. split; [done|]. intros y [->|Hy]%elem_of_cons; [by rewrite ord_refl|]. intros H'. by destruct (IH _ Hy).
Qed.

(** A borrowed form equal to a key compares as that key does. *)
Lemma probe_as_key p k : probe_ok p -> p k = Eq -> forall x, p x = kcmp x k.
Proof.
  intros Hp E x. destruct (kcmp x k) eqn:Ex.
  - by rewrite (probe_eq _ Hp x k).
  - apply (probe_mono _ Hp x k); [done|by rewrite E].
  - apply kcmp_gt_lt in Ex. apply (probe_gt p k x Hp Ex). by rewrite E.
Qed.
Lemma spec_get_ext p p' l : (forall x, p x = p' x) -> spec_get p l = spec_get p' l.
Proof. intros H. induction l as [|[k v] l IH]; simpl; [done|]. by rewrite H, IH. Qed.
Lemma spec_remove_ext p p' l : (forall x, p x = p' x) -> spec_remove p l = spec_remove p' l.
Proof. intros H. induction l as [|[k v] l IH]; simpl; [done|]. by rewrite H, IH. Qed.
Lemma spec_update_ext p p' f l : (forall x, p x = p' x) -> spec_update p f l = spec_update p' f l.
Proof. intros H. induction l as [|[k v] l IH]; simpl; [done|]. by rewrite H, IH. Qed.
End ContentsProof.
