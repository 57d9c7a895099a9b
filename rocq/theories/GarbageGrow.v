(** Growing and shrinking a tree again and again. *)
From stdpp Require Import list sorting.
From Coq Require Import ZArith.
From Verif Require Import Base Slots Store Tree Remove Iterators Observe BulkLoad History View GarbageSpec Spec Contents Instances
  HistProof HistTop ShapeTop ViewProof Garbage.

Section Grow.
Context {A : Type} {AO : AugOps Z Z A} {PF : Profile}.
Notation tree := (tree Z Z A).
Implicit Types (l : list (Z * Z)).

Lemma shows_some b (T : tree) l : reachable b T l -> exists w, tree_shows T w.
Proof. intros Hr. destruct (shape_ok b T l Hr) as (w & h & H & _). by exists w. Qed.
Lemma spec_run_step l (o : op Z Z) ops : (spec_run l (o :: ops)).2 = (spec_run (spec_step l o).2 ops).2.
Proof. simpl. destruct (spec_step l o) as [r l']. simpl. by destruct (spec_run l' ops). Qed.

Lemma inserts_left ks (T : tree) l w : reachable SNew T l -> tree_shows T w -> (N.of_nat (length l + length ks) < 2 ^ 64)%N ->
  exists T' w', reachable SNew T' (spec_run l (zinserts ks)).2 /\ tree_shows T' w' /\ left_over T' w' = left_over T w.
Proof.
  revert T l w. induction ks as [|k ks IH]; intros T l w Hr Hw Hlen; [by exists T, w|].
  cbn [zinserts map]. rewrite spec_run_step. set (o := OInsert k (10 * k)%Z).
  pose proof (spec_step_length l o) as Hs. cbn [length] in Hlen.
  destruct (reachable_step SNew T l o Hr I) as (T1 & E & Hr1); [done|lia|].
  destruct (shows_some _ _ _ Hr1) as [w1 Hw1].
  destruct (step_left SNew T T1 l o _ w w1 Hr I (fun F => match F with end) E Hw Hw1) as [H1 _].
  destruct (IH T1 _ w1 Hr1 Hw1) as (T' & w' & H2 & H3 & H4); [lia|].
  exists T', w'. split; [done|]. split; [done|]. rewrite H4, H1. done.
Qed.
Lemma removes_left ks (T : tree) l w : aug_needs_drop (K:=Z) (V:=Z) (A:=A) = false ->
  reachable SNew T l -> tree_shows T w -> (N.of_nat (length l) < 2 ^ 64)%N ->
  exists T' w', reachable SNew T' (spec_run l (zremoves ks)).2 /\ tree_shows T' w' /\
    left_over T' w' + view_height w' = left_over T w + view_height w.
Proof.
  intros Hd. revert T l w. induction ks as [|k ks IH]; intros T l w Hr Hw Hlen; [by exists T, w|].
  cbn [zremoves map]. rewrite spec_run_step. set (o := ORemove (V:=Z) (probe_key k)).
  assert (length (spec_step l o).2 <= length l) as Hs by apply spec_remove_length.
  assert (op_ok o) as Ho by apply probe_key_legal.
  assert (removal_ok (A:=A) SNew l) as Hrm by (split; by left).
  destruct (reachable_step SNew T l o Hr Ho) as (T1 & E & Hr1); [done|lia|].
  destruct (shows_some _ _ _ Hr1) as [w1 Hw1].
  destruct (step_left SNew T T1 l o _ w w1 Hr Ho (fun _ => Hrm) E Hw Hw1) as [H1 Hle]. specialize (Hle I). cbn in H1.
  destruct (IH T1 _ w1 Hr1 Hw1) as (T' & w' & H2 & H3 & H4); [lia|].
  exists T', w'. split; [done|]. split; [done|]. lia.
Qed.

Lemma occupied_height top low h (w : view Z Z) : occupied top low h w -> view_height w = h.
Proof.
  revert top low w. induction h as [|h IH]; intros top low [id kvs|id ks ch]; simpl; try done.
  intros (_ & Hl & Hf). destruct ch as [|c ch]; [done|]. f_equal. apply Forall_cons in Hf as [Hf _]. by eapply IH.
Qed.
(** the height follows from the number of entries *)
Lemma small_height (T : tree) l w : reachable SNew T l -> tree_shows T w ->
  (length l < 16 -> view_height w = 0) /\ (64 < length l < 272 -> view_height w = 1).
Proof.
  intros Hr Hw. destruct (shape_ok SNew T l Hr) as (w1 & h & _ & Hu & He & _ & Ho & _ & _ & Hs).
  rewrite (Hu w Hw), (occupied_height _ _ _ _ Ho). split.
  - destruct h as [|h]; [done|]. specialize (Hs h eq_refl). intros Hl.
    assert (1 <= 17 ^ N.of_nat h)%N by (apply N.lt_pred_le, N.neq_0_lt_0, N.pow_nonzero; done). lia.
  - intros Hl. destruct h as [|[|h]]; [|done|].
    + destruct w1; [|done]. simpl in *. subst. lia.
    + exfalso. specialize (Hs (S h) eq_refl). rewrite Nnat.Nat2N.inj_succ, N.pow_succ_r' in Hs.
      assert (1 <= 17 ^ N.of_nat h)%N by (apply N.lt_pred_le, N.neq_0_lt_0, N.pow_nonzero; done). lia.
Qed.

Lemma grows n : aug_needs_drop (K:=Z) (V:=Z) (A:=A) = false ->
  exists (T : tree) w, reachable SNew T (zpairs (zseq 60 10)) /\ tree_shows T w /\ left_over T w = n.
Proof.
  intros Hd. set (l0 := zpairs (zseq 60 10)).
  assert (forall T w, reachable SNew T l0 -> tree_shows T w ->
    exists (T' : tree) w', reachable SNew T' l0 /\ tree_shows T' w' /\ left_over T' w' = S (left_over T w)) as Hcyc.
  { intros T w Hr Hw. destruct (inserts_left (zseq 0 60) T l0 w Hr Hw) as (T1 & w1 & Hr1 & Hw1 & E1); [by vm_compute|].
    assert ((spec_run l0 (zinserts (zseq 0 60))).2 = zpairs (zseq 0 70)) as El by (vm_compute; reflexivity). rewrite El in Hr1.
    destruct (removes_left (zseq 0 60) T1 _ w1 Hd Hr1 Hw1) as (T2 & w2 & Hr2 & Hw2 & E2); [by vm_compute|].
    assert ((spec_run (zpairs (zseq 0 70)) (zremoves (zseq 0 60))).2 = l0) as El2 by (vm_compute; reflexivity). rewrite El2 in Hr2.
    exists T2, w2. split; [done|]. split; [done|].
    assert (view_height w1 = 1) as Hh1 by (apply (small_height T1 _ w1 Hr1 Hw1); by vm_compute; lia).
    assert (view_height w2 = 0) as Hh2 by (apply (small_height T2 _ w2 Hr2 Hw2); vm_compute; lia).
    lia. }
  induction n as [|n (T & w & Hr & Hw & E)].
  - assert (reachable SNew (tree_new (AO:=AO)) []) as Hr0.
    { exists [], []. split; [|done]. split; [done|constructor|by split|done]. }
    destruct (shows_some _ _ _ Hr0) as [w0 Hw0].
    destruct (inserts_left (zseq 60 10) tree_new [] w0 Hr0 Hw0) as (T & w & Hr & Hw & E); [by vm_compute|].
    assert ((spec_run [] (zinserts (zseq 60 10))).2 = l0) as El by (vm_compute; reflexivity). rewrite El in Hr.
    exists T, w. split; [done|]. split; [done|]. rewrite E. by apply (begin_left SNew tree_new w0).
  - destruct (Hcyc T w Hr Hw) as (T' & w' & H1 & H2 & H3). exists T', w'. by rewrite H3, E.
Qed.
End Grow.
