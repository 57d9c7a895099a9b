(** Legal histories in both builds, and the sizes for which a release build reads
    an uninitialised child. *)
From stdpp Require Import list sorting.
From Verif Require Import Base Slots BinSearch LeafNode InnerNode Store Tree Remove Iterators Observe
  BulkLoad Cursor Augment MapSet History SetHist Spec Order HistProof HistTop BulkTop Orphan ReleaseSpec ReleaseProof EdgeProof MapTop ReadTop Instances.

Section Legal.
Context {K V A : Type} {KO : KeyOps K} {OL : OrdLaws K} {AO : AugOps K V A}.

Lemma legal_same b (ops : list (op K V)) : legal (A:=A) b ops ->
  exec (PF:=release_build) (A:=A) b ops = exec (PF:=dev_build) b ops.
Proof.
  intros Hl. destruct (history_ok (PF:=dev_build) b ops Hl) as (T & E & _).
  destruct (exec_sim (A:=A) b ops) as [H|H]; [congruence|done].
Qed.
Lemma reachable_same b (T : tree K V A) l :
  (reachable (PF:=dev_build) b T l -> reachable (PF:=release_build) b T l) /\
  (orphan_free (length (spec_begin b)) -> reachable (PF:=release_build) b T l -> reachable (PF:=dev_build) b T l).
Proof.
  split; [|intros Ho]; intros (ops & rs & Hl & E & Hs); exists ops, rs; split_and!; try done.
  - destruct (exec_sim (A:=A) b ops) as [H|H]; congruence.
  - rewrite <- legal_same; [done|]. by apply proper_legal.
Qed.
End Legal.

(** ** 270465 keys *)
Section Keys.
Context {K V : Type} {KO : KeyOps K} {OL : OrdLaws K}.
Lemma dedup_ascending c (l : list (K * V)) : ascending (c :: l) -> dedup_keep_last (Some c) l = c :: l.
Proof.
  revert c. induction l as [|x l IH]; intros c H; [done|]. cbn [dedup_keep_last].
  apply StronglySorted_inv in H as [H1 H2]. apply Forall_cons in H2 as [H2 _].
  unfold same_key. rewrite H2. by rewrite IH.
Qed.
Lemma load_ascending (l : list (K * V)) : ascending l -> spec_load l = l.
Proof.
  intros H. rewrite <- dedup_load.
  - destruct l as [|c l]; [done|]. by apply dedup_ascending.
  - unfold key_sorted, ascending in *. induction H as [|x l H IH HF]; constructor; [done|].
    eapply Forall_impl; [exact HF|]. intros y Hy. simpl in Hy. congruence.
Qed.
End Keys.

Lemma zseq_ascending a n : ascending (zpairs (zseq a n)).
Proof.
  unfold ascending, zpairs, zseq. generalize 0. induction n as [|n IH]; intros i; simpl; constructor; [apply IH|].
  apply Forall_forall. intros x Hx. apply elem_of_list_fmap in Hx as (z & -> & Hz).
  apply elem_of_list_fmap in Hz as (j & -> & Hj). apply elem_of_list_In, in_seq in Hj. simpl.
  unfold kcmp, z_key. apply Z.compare_lt_iff. lia.
Qed.
Lemma zseq_length a n : length (zpairs (zseq a n)) = n.
Proof. unfold zpairs, zseq. by rewrite !map_length, seq_length. Qed.

Lemma orphan_over_inner n : N.of_nat n = 270465%N ->
  ~ orphan_free n /\ ((n + 63) / 64) mod 65 <> 1.
Proof.
  intros Hn. assert ((n + 63) / 64 = N.to_nat 4227) as E1.
  { apply Nat2N.inj. rewrite Nat2N.inj_div, Nat2N.inj_add, Hn, N2Nat.id. done. }
  assert (N.to_nat 4227 mod 65 = 2) as E2.
  { apply Nat2N.inj. rewrite Nat2N.inj_mod, N2Nat.id. done. }
  assert ((N.to_nat 4227 + 64) / 65 = 66) as E3.
  { apply Nat2N.inj. rewrite Nat2N.inj_div, Nat2N.inj_add, N2Nat.id. done. }
  rewrite E1, E2. split; [|done]. unfold orphan_free. rewrite E1. intros [H|H]; [subst n; done|].
  assert (N.to_nat 4227 <> 1) as E4 by lia. remember (N.to_nat 4227) as m eqn:Em. clear Em.
  destruct H as [|m _ _ H]; [done|]. rewrite E3 in H.
  remember 66 as m' eqn:Em. destruct H as [|m' _ H _]; [done|]. apply H. by rewrite Em.
Qed.

Lemma orphan_over_leaf n : (N.of_nat n < 270465)%N -> ~ orphan_free n -> ((n + 63) / 64) mod 65 = 1.
Proof.
  intros Hn Ho. destruct (decide (n = 0)) as [->|H0]; [destruct Ho; by left|].
  set (m := (n + 63) / 64) in *. assert (1 <= m) as Hm1 by (apply (Nat.div_le_lower_bound _ 64 1); lia).
  assert (N.of_nat m < 4227)%N as Hm.
  { unfold m. rewrite Nat2N.inj_div, Nat2N.inj_add. apply N.div_lt_upper_bound; [done|]. lia. }
  destruct (decide (m mod 65 = 1)) as [|Hmod]; [done|]. exfalso. apply Ho. right. fold m.
  destruct (decide (m = 1)) as [->|H1]; [constructor|]. apply no_orphan_more; [lia|done|].
  set (m' := (m + 64) / 65). assert (1 <= m') as Hm1' by (apply (Nat.div_le_lower_bound _ 65 1); lia).
  assert (m' <= 65) as Hm'.
  { destruct (decide (m' <= 65)) as [|Hgt]; [done|]. exfalso. pose proof (Nat.mul_div_le (m + 64) 65 ltac:(done)) as H. fold m' in H.
    assert (m = 4226) as E by lia. apply Hmod. rewrite E. done. }
  destruct (decide (m' = 1)) as [->|H1']; [constructor|]. apply no_orphan_more; [lia| |].
  - destruct (decide (m' = 65)) as [->|]; [done|]. rewrite Nat.mod_small; lia.
  - replace ((m' + 64) / 65) with 1; [constructor|]. apply (Nat.div_unique _ 65 1 (m' - 1)); lia.
Qed.
Lemma orphan_over_leaf_ex n : N.eqb (((N.of_nat n + 63) / 64) mod 65) 1 = true -> N.ltb 64 (N.of_nat n) = true -> ~ orphan_free n.
Proof.
  intros H%N.eqb_eq Hn%N.ltb_lt. assert (((n + 63) / 64) mod 65 = 1) as E.
  { apply Nat2N.inj. rewrite Nat2N.inj_mod, Nat2N.inj_div, Nat2N.inj_add. done. }
  assert (2 <= (n + 63) / 64) as H2 by (apply (Nat.div_le_lower_bound _ 64 2); lia).
  intros [->|Ho]; [done|]. revert H2 E. destruct Ho as [|m _ Hm _]; [lia|done].
Qed.

Lemma release_ub {A} {AO : AugOps Z Z A} : aug_needs_drop (K:=Z) (V:=Z) (A:=A) = false -> exists (data : list (Z * Z)) ops,
  key_sorted data /\ N.of_nat (length data) = 270465%N /\ Forall op_ok ops /\ fits (spec_begin (SBulk data)) ops /\
  exec (PF:=release_build) (A:=A) (SBulk data) ops = UB.
Proof.
  intros Hd.
  destruct (ltac:(eexists; symmetry; apply N2Nat.id) : exists n, 270465%N = N.of_nat n) as (n & Hn). symmetry in Hn.
  pose proof (zseq_ascending 0 n) as Ha. pose proof (zseq_length 0 n) as Hl. set (data := zpairs (zseq 0 n)) in *.
  assert (key_sorted data) as Hs.
  { unfold key_sorted, ascending in *. clear -Ha. induction Ha as [|x l H IH HF]; constructor; [done|].
    eapply Forall_impl; [exact HF|]. intros y Hy. simpl in Hy. congruence. }
  pose proof (load_ascending data Ha) as El.
  destruct (orphan_over_inner n Hn) as [Ho Hm].
  destruct (orphan_stops (PF:=release_build) (A:=A) Hd (SBulk data)) as (i & Hi).
  { done. } { cbn [spec_begin]. rewrite El, Hl, Hn. done. } { cbn [spec_begin]. by rewrite El, Hl. }
  cbn [spec_begin] in Hi. rewrite El, Hl in Hi. rewrite decide_False in Hi by done.
  exists data, (map (fun x => ORemove (probe_key x.1)) (take i (rev data))). split_and!; try done.
  - by rewrite Hl.
  - apply Forall_forall. intros o Ho'. apply elem_of_list_fmap in Ho' as (x & -> & _). apply probe_key_legal.
  - apply fits_short. cbn [spec_begin]. rewrite El, map_length, take_length, rev_length, Hl. lia.
Qed.

Lemma last_empty_release {A} {AO : AugOps Z Z A} :
  cursor_last_with_value (PF:=release_build) (A:=A) (K:=Z) (V:=Z) tree_new = UB.
Proof.
  apply (cursor_empty (PF:=release_build) SNew), (new_reachable (PF:=release_build)).
Qed.
