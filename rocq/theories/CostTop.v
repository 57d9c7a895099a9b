(** Comparisons made on a tree a program can hold. *)
From stdpp Require Import list sorting.
From Verif Require Import Base Slots BinSearch LeafNode InnerNode Store Tree Remove Iterators Observe Cursor
  BulkLoad InsertParts Volatile History View SlotLemmas NodeLemmas Spec AugSpec AnySpec Order Logical Descent InsertProof InvLemmas InsertTop
  RemoveLeaf RemoveInner RemoveProof RemoveTop Lookup ViewProof IterProof IntoProof BulkProof HistTop AnyProof ShapeTop GarbageSpec Garbage
  VolatileSpec VolatileProof CostSpec CostProof.

Section Cost.
Context {W K V A : Type} {KO : KeyOps K} {PF : Profile} {OM : OrdMode} {AO : AugOps K V A}.
Notation tree := (tree K V A).
Variables (rl ri : nat).
Hypothesis Hrl1 : 1 <= rl.
Hypothesis Hrl2 : rl <= 16.
Hypothesis Hri : ri <= 16.

Lemma height_log h n : (forall h', h = S h' -> (16 * 17 ^ N.of_nat h' <= N.of_nat n)%N) -> h <= Nat.log2 n / 4.
Proof.
  destruct h as [|h]; intros H; [lia|]. specialize (H h eq_refl). apply Nat.div_le_lower_bound; [lia|].
  assert (2 ^ N.of_nat (4 * S h) <= N.of_nat n)%N as H2.
  { etransitivity; [|exact H]. replace (N.of_nat (4 * S h)) with (4 + 4 * N.of_nat h)%N by lia.
    rewrite N.pow_add_r, N.pow_mul_r. apply N.mul_le_mono_l, N.pow_le_mono_l. vm_compute. discriminate. }
  assert (2 ^ (4 * S h) <= n) as H3.
  { assert (N.of_nat (2 ^ (4 * S h)) <= N.of_nat n)%N; [|lia]. rewrite Nnat.Nat2N.inj_pow. exact H2. }
  apply Nat.log2_le_mono in H3. rewrite Nat.log2_pow2 in H3; lia.
Qed.

Lemma shape_height m b h (t : tr K V) : nshape rl ri m b h t -> view_height (of_tr t) = h.
Proof.
  clear. revert t m b. induction h as [|h IH]; intros [id kvs|id ks ch] m b; simpl; try done.
  intros (_ & Hl & Hc). destruct ch as [|c ch]; [done|]. simpl. f_equal.
  apply (chs_app _ _ [] c ch) in Hc as (_ & Hc & _). apply shape_nshape in Hc. by eapply IH.
Qed.

Lemma step_cost (T : tree) h t (o : vop W K V) w r T' w' : InvAt rl ri False T h t -> vstep T o w = Ok (r, T', w') ->
  exists n, vstep T (counting_op o) (w, 0) = Ok (r, T', (w', n)) /\ n <= 12 + 7 * (Nat.log2 (length (flat t)) / 4) /\
    (forall v, tree_shows T v -> n <= call_cost (view_height v) o).
Proof.
  intros HI E. destruct (vstep_cost rl ri Hrl1 Hrl2 Hri T h t o w 0 r T' w' HI E) as (n & E' & Hn). exists n. split; [done|]. split.
  - assert (h <= Nat.log2 (length (flat t)) / 4) as Hh.
    { apply height_log. intros h' ->. by apply (root_size rl ri h' t), HI. }
    transitivity (call_cost h o); [done|]. transitivity (12 + 7 * h); [|lia]. destruct o; simpl; lia.
  - intros v Hv. rewrite (tree_shows_fun T v (of_tr t)); [|done|].
    + by rewrite (shape_height (rmin h) true h t (inv_shape _ _ _ _ _ _ HI)).
    + split; [by rewrite of_tr_id; apply HI|]. eapply of_tr_shows; [apply HI|apply HI|]. apply lrep_lvok'; [apply HI|]. eapply nshape_segs. apply HI.
Qed.

End Cost.

Section Program.
Context {W K V A : Type} {AO : AugOps K V A} {PF : Profile}.

Lemma vinserts_app (a b : list (vop W K V)) : vinserts (a ++ b) = vinserts a + vinserts b.
Proof. induction a as [|o a IH]; [done|]. destruct o; simpl; lia. Qed.
Lemma vruns_length (l : list (K * V)) (ops : list (vop W K V)) rs l' : vruns l ops rs l' -> length l' <= length l + vinserts ops.
Proof.
  induction 1 as [|l o r l1 ops rs l2 H H1 IH]; [simpl; lia|]. pose proof (vstep_any_length _ _ _ _ ops H). lia.
Qed.

Lemma program_cost {KO : KeyOps K} (T : tree K V A) rl l (ops : list (vop W K V)) o w : 1 <= rl <= 16 ->
  (forall ri, ri <= rl -> (1 <= ri -> orphan_free (length l)) ->
    exists h t, InvAt (OM:=om_false) rl ri False T h t /\ flat t = l) ->
  vlegal (A:=A) (length l) (ops ++ [o]) ->
  exists rs T1 w1 l1 r T2 w2 n, vrun T ops w = Ok (rs, T1, w1) /\ entries T1 = Ok l1 /\
    vstep T1 o w1 = Ok (r, T2, w2) /\ vstep T1 (counting_op o) (w1, 0) = Ok (r, T2, (w2, n)) /\
    n <= 12 + 7 * (Nat.log2 (length l1) / 4) /\ (forall v, tree_shows T1 v -> n <= call_cost (view_height v) o).
Proof.
  intros Hrl HT [H1 H2 H3].
  assert (exists ri, ri <= rl /\ (1 <= ri -> orphan_free (length l)) /\ (Exists is_vremove (ops ++ [o]) -> 1 <= ri)) as (ri & L1 & L2 & L3).
  { destruct (vremove_dec (ops ++ [o])) as [He|He]; [exists 1|exists 0]; (split_and!; [lia|first [lia|auto]|done || lia]). }
  rewrite vinserts_app in H1, H3.
  destruct (HT ri L1 L2) as (h & t & HI & <-).
  pose proof (ord_if_false K KO) as OI.
  destruct (vrun_ok (OM:=om_false) (fun x => x) rl ri ltac:(lia) ltac:(lia) ltac:(lia) T h t ops w HI) as (rs & T1 & w1 & h1 & t1 & E & HI1 & Hv).
  { intros He. apply L3, Exists_app. by left. }
  { intros He. destruct H3 as [?|?]; [apply Exists_app; by left|by left|right; lia]. }
  { lia. }
  apply vruns_length in Hv.
  destruct (vstep_ok (OM:=om_false) (fun x => x) rl ri ltac:(lia) ltac:(lia) ltac:(lia) T1 h1 t1 o w1 HI1) as (r & T2 & w2 & h2 & t2 & E2 & HI2 & _).
  { intros He. apply L3, Exists_app. right. by left. }
  { intros He. destruct H3 as [?|?]; [apply Exists_app; right; by left|by left|right; lia]. }
  { lia. }
  destruct (step_cost (OM:=om_false) rl ri ltac:(lia) ltac:(lia) ltac:(lia) T1 h1 t1 o w1 r T2 w2 HI1 E2) as (n & En & Hn).
  exists rs, T1, w1, (flat t1), r, T2, w2, n. split; [done|]. split; [|done].
  eapply (entries_ok (OM:=om_false)); [|exact HI1]; lia.
Qed.
Lemma new_cost (ops : list (vop W K V)) o w : vlegal (A:=A) 0 (ops ++ [o]) ->
  exists rs (T1 : tree K V A) w1 l1 r T2 w2 n, vrun tree_new ops w = Ok (rs, T1, w1) /\ entries T1 = Ok l1 /\
    vstep T1 o w1 = Ok (r, T2, w2) /\ vstep T1 (counting_op o) (w1, 0) = Ok (r, T2, (w2, n)) /\
    n <= 12 + 7 * (Nat.log2 (length l1) / 4) /\ (forall v, tree_shows T1 v -> n <= call_cost (view_height v) o).
Proof.
  intros Hl. set (KO := (fun _ _ => Eq) : KeyOps K).
  apply (program_cost (KO:=KO) tree_new 16 []); [lia| |done].
  intros ri Hri _. exists 0, (TLeaf 0 []). split; [|done]. apply new_inv; lia.
Qed.
Lemma bulk_cost (c : code2 W K) (data : list (K * V)) w : exists r w1 n,
  bulk_load_c (A:=A) c data w = Ok (r, w1) /\ bulk_load_c (A:=A) (counting2 c) data (w, 0) = Ok (r, (w1, n)) /\ n <= pred (length data) /\
  match r with
  | None => True
  | Some T0 => exists l0, entries T0 = Ok l0 /\ forall (ops : list (vop W K V)) o, vlegal (A:=A) (length l0) (ops ++ [o]) ->
    exists rs T1 w1' l1 r T2 w2 n, vrun T0 ops w1 = Ok (rs, T1, w1') /\ entries T1 = Ok l1 /\
    vstep T1 o w1' = Ok (r, T2, w2) /\ vstep T1 (counting_op o) (w1', 0) = Ok (r, T2, (w2, n)) /\
    n <= 12 + 7 * (Nat.log2 (length l1) / 4) /\ (forall v, tree_shows T1 v -> n <= call_cost (view_height v) o)
  end.
Proof.
  set (KO := (fun _ _ => Eq) : KeyOps K).
  destruct (bulk_load_does (KO:=KO) (OM:=om_false) (OI:=ord_if_false K KO) (A:=A) (fun x => x) c data w) as (r & w1 & E & Hr).
  destruct (bulk_load_cost (A:=A) c data w r w1 E) as (n & En & Hn). exists r, w1, n. split; [done|]. split; [done|]. split; [done|].
  destruct r as [T0|]; [|done]. destruct Hr as (l0 & Hth & HT). exists l0. split.
  - destruct (HT 0) as (h & t & HI & <-); [lia|done|]. refine (entries_ok (KO:=KO) (OM:=om_false) 1 0 False _ T0 h t HI). lia.
  - intros ops o Hops. apply (program_cost (KO:=KO) T0 1 l0); [lia| |done].
    intros ri Hri Ho. apply HT; [done|]. intros ->. auto.
Qed.
End Program.

Section Ordered.
Context {W K V A : Type} {KO : KeyOps K} {PF : Profile} {OL : OrdLaws K} {AO : AugOps K V A}.
Lemma reachable_cost b (T : tree K V A) l (o : vop W K V) w r T' w' : reachable b T l -> vstep T o w = Ok (r, T', w') ->
  exists n, vstep T (counting_op o) (w, 0) = Ok (r, T', (w', n)) /\ n <= 12 + 7 * (Nat.log2 (length l) / 4) /\
    (forall v, tree_shows T v -> n <= call_cost (view_height v) o).
Proof.
  intros Hr E. destruct (reachable_any False b T l Hr) as (ri & h & t & Hlow & Hri & HI & <- & Ha & Hof & Hh); [done|].
  by apply (step_cost (low b) ri ltac:(lia) ltac:(lia) Hri T h t o w).
Qed.
End Ordered.
