(** Every history after every bulk load, for any comparison: safe, until a removal
    stops at a node the loader left with a single child. *)
From stdpp Require Import list sorting.
From Verif Require Import Base Slots BinSearch LeafNode InnerNode Store Tree Remove Iterators Observe
  BulkLoad History SlotLemmas NodeLemmas Spec AugSpec Order Logical Descent InsertProof InvLemmas InsertTop
  RemoveLeaf RemoveInner RemoveProof RemoveTop Lookup IterProof IntoProof BulkProof BulkTop HistProof HistTop ReadTop
  AnySpec AnyHist AnyProof.

Lemma stuck_is {PF : Profile} {X} j (o : outcome X) : o = stuck j -> o = Panic \/ dev = false /\ o = UB.
Proof. intros ->. destruct j; [by left|]. unfold stuck. destruct dev; [by left|by right]. Qed.

(** ** Any comparison *)
Section OrphanAnyOrder.
Context {K V A : Type} {KO : KeyOps K} {PF : Profile} {AO : AugOps K V A}.
Notation tree := (tree K V A).
Notation op := (op K V).
Context (Hnd0 : aug_needs_drop (K:=K) (V:=V) (A:=A) = false).
#[local] Existing Instance om_false.
#[local] Instance oi : OrdIf K := ord_if_false K KO.
Lemma no_order : ~ @ORD om_false.
Proof. exact (fun x => x). Qed.
Notation InvAt := (InvAt (OM:=om_false) (A:=A) 1 0 False).

Lemma step_any_gen (T : tree) h t (o : op) : InvAt T h t -> (N.of_nat (length (flat t)) < 2 ^ 64)%N ->
  (exists p j, o = ORemove p /\ step T o = stuck j) \/
  exists r T' h' t', step T o = Ok (r, T') /\ InvAt T' h' t' /\ step_any (flat t) o r (flat t').
Proof.
  intros HI Hlen. assert (is_remove o \/ ~ is_remove o) as [Hr|Hr] by (destruct o; simpl; tauto).
  - destruct o as [|p| | | | | | | | | | | ]; try done. rewrite <- (inv_len _ _ _ _ _ _ HI) in Hlen.
    destruct (remove_gen (OM:=om_false) (OI:=oi) 1 0 False ltac:(lia) ltac:(lia) T h t p HI (probe_any (OM:=om_false) no_order p) Hlen (or_introl Hnd0))
      as [(_ & _ & j & _ & E)|(r & T' & h' & t' & E & HI' & _ & Hd & _)].
    + left. exists p, j. split; [done|]. cbn [step]. rewrite E. apply stuck_bind.
    + right. eexists _, T', h', t'. cbn [step step_any]. rewrite E, obind_Ok. eauto.
  - right. apply (step_any_ok (OM:=om_false) (OI:=oi) no_order 1 0 ltac:(lia) ltac:(lia) T h t o HI); try done.
Qed.

Lemma run_any_gen ops : forall (T : tree) h t, InvAt T h t -> (N.of_nat (length (flat t) + inserts ops) < 2 ^ 64)%N ->
  (exists rs T' l, run T ops = Ok (rs, T') /\ runs_any (flat t) ops rs l /\ entries T' = Ok l) \/
  exists ops1 p ops2 rs T' l j, ops = ops1 ++ ORemove p :: ops2 /\
    run T ops1 = Ok (rs, T') /\ runs_any (flat t) ops1 rs l /\ entries T' = Ok l /\
    run T (ops1 ++ ORemove p :: ops2) = stuck j.
Proof.
  induction ops as [|o ops IH]; intros T h t HI Hn.
  { left. eexists _, T, (flat t). split; [done|]. split; [constructor|]. by apply (entries_ok (OM:=om_false) 1 0 False ltac:(lia) T h t). }
  destruct (step_any_gen T h t o HI) as [(p & j & -> & E)|(r & T1 & h1 & t1 & E & HI1 & H1)]; [lia|..].
  - right. exists [], p, ops, [], T, (flat t), j. cbn [app run]. split_and!; try done.
    + constructor.
    + by apply (entries_ok (OM:=om_false) 1 0 False ltac:(lia) T h t).
    + rewrite E. apply stuck_bind.
  - pose proof (step_any_length _ _ _ _ ops H1) as Hl.
    destruct (IH T1 h1 t1 HI1) as [(rs & T' & l & E' & X & Y)|(ops1 & p & ops2 & rs & T' & l & j & -> & E' & X & Y & Es)]; [lia|..].
    + left. eexists _, T', l. cbn [run]. rewrite E, obind_Ok, E', obind_Ok. split; [done|]. split; [by econstructor|done].
    + right. eexists (o :: ops1), p, ops2, _, T', l, j. cbn [app run]. rewrite E, !obind_Ok, E', Es, obind_Ok, stuck_bind.
      split_and!; try done. by econstructor.
Qed.

Lemma exec_any_gen b l0 (ops : list op) : start_any b = Some l0 -> (N.of_nat (length l0 + inserts ops) < 2 ^ 64)%N ->
  (exists rs (T : tree) l, exec b ops = Ok (rs, T) /\ runs_any l0 ops rs l /\ entries T = Ok l) \/
  ~ orphan_free (length l0) /\
  exists ops1 p ops2 rs (T : tree) l, ops = ops1 ++ ORemove p :: ops2 /\
    exec b ops1 = Ok (rs, T) /\ runs_any l0 ops1 rs l /\ entries T = Ok l /\
    (exec (A:=A) b ops = Panic \/ dev = false /\ exec (A:=A) b ops = UB).
Proof.
  intros Hb Hn.
  assert (orphan_free (length l0) \/ ~ orphan_free (length l0)) as [Ho|Ho].
  { unfold orphan_free. destruct (decide (length l0 = 0)); [by left; left|].
    destruct (no_orphan_dec ((length l0 + 63) / 64)) as [H|H]; [by left; right|]. right. by intros [?|?]. }
  - left. apply any_history_ok. split; try done. by left.
  - destruct (begin_any (OM:=om_false) (OI:=oi) no_order b 0 l0 Hb ltac:(lia) ltac:(lia)) as (T & h & t & E & HI & Hfl).
    assert (low b = 1) as El.
    { destruct b; [|done|done]. injection Hb as <-. destruct Ho. by left. }
    rewrite El in HI. subst l0.
    destruct (run_any_gen ops T h t HI Hn) as [(rs & T' & l & E' & X)|(ops1 & p & ops2 & rs & T' & l & j & -> & E' & X & Y & Es)].
    + left. exists rs, T', l. unfold exec. by rewrite E, obind_Ok.
    + right. split; [done|]. exists ops1, p, ops2, rs, T', l. unfold exec. rewrite E, !obind_Ok.
      split_and!; try done. by apply (stuck_is j).
Qed.
End OrphanAnyOrder.
