(** Every legal history runs and keeps the invariant. *)
From stdpp Require Import list sorting.
From Verif Require Import Base Slots BinSearch LeafNode InnerNode Store Tree Remove Iterators Observe
  BulkLoad History SlotLemmas NodeLemmas Spec AugSpec Order Logical Descent InsertProof InvLemmas InsertTop
  RemoveLeaf RemoveInner RemoveProof RemoveTop Lookup IterProof IntoProof.

Section HistProof.
Context {K V A : Type} {KO : KeyOps K} {PF : Profile} {OL : OrdLaws K} {AO : AugOps K V A}.
Notation tr := (tr K V).
Notation tree := (tree K V A).
Notation op := (op K V).

Lemma spec_insert_length k v (l : list (K * V)) : length (spec_insert k v l) <= S (length l).
Proof.
  induction l as [|[k' v'] l IH]; simpl; [lia|]. destruct (kcmp k' k); simpl; lia.
Qed.
Lemma spec_remove_length p (l : list (K * V)) : length (spec_remove p l) <= length l.
Proof. induction l as [|[k v] l IH]; simpl; [lia|]. destruct (p k); simpl; lia. Qed.

Lemma spec_step_length l (o : op) : length (spec_step l o).2 <= S (length l).
Proof.
  destruct o as [k v|p|p|p f| | | | | | | | |c]; cbn [spec_step snd]; try lia.
  - apply spec_insert_length.
  - pose proof (spec_remove_length p l). lia.
  - rewrite spec_update_length. lia.
  - simpl. lia.
Qed.

Lemma fits_short l (ops : list op) : (N.of_nat (length l + length ops) < 2 ^ 64)%N -> fits l ops.
Proof.
  revert l. induction ops as [|o ops IH]; intros l H; cbn [fits]; (split; [lia|]); [done|].
  apply IH. cbn [length] in H. pose proof (spec_step_length l o). lia.
Qed.
Lemma fits_end l (ops : list op) : fits l ops -> (N.of_nat (length (spec_run l ops).2) < 2 ^ 64)%N.
Proof.
  revert l. induction ops as [|o ops IH]; intros l [H1 H2]; cbn [spec_run]; [done|]. apply IH in H2.
  destruct (spec_step l o) as [r l']. cbn [fst snd] in *. destruct (spec_run l' ops). done.
Qed.
Lemma spec_run_app l (ops1 ops2 : list op) :
  (spec_run l (ops1 ++ ops2)).2 = (spec_run (spec_run l ops1).2 ops2).2.
Proof.
  revert l. induction ops1 as [|o ops IH]; intros l; [done|]. cbn [spec_run app].
  destruct (spec_step l o) as [r l'] eqn:E. specialize (IH l').
  destruct (spec_run l' (ops ++ ops2)), (spec_run l' ops). done.
Qed.
Lemma fits_app l (ops1 ops2 : list op) : fits l ops1 -> fits (spec_run l ops1).2 ops2 -> fits l (ops1 ++ ops2).
Proof.
  revert l. induction ops1 as [|o ops IH]; intros l; [done|]. intros [H1 H2] H3. cbn [fits app]. split; [done|].
  apply IH; [done|]. cbn [spec_run] in H3. destruct (spec_step l o) as [r l']. cbn [fst snd] in *.
  destruct (spec_run l' ops). done.
Qed.
Lemma drops_app l (ops1 ops2 : list op) : drops_ok (A:=A) l ops1 -> drops_ok (A:=A) (spec_run l ops1).2 ops2 ->
  drops_ok (A:=A) l (ops1 ++ ops2).
Proof.
  revert l. induction ops1 as [|o ops1 IH]; intros l; cbn [drops_ok spec_run app]; [done|].
  intros [H1 H2] H3. split; [done|]. apply IH; [done|]. destruct (spec_step l o) as [r l']. cbn [snd] in *.
  by destruct (spec_run l' ops1).
Qed.
Lemma drops_none l (ops : list op) : aug_needs_drop (K:=K) (V:=V) (A:=A) = false -> drops_ok (A:=A) l ops.
Proof. intros H. revert l. induction ops as [|o ops IH]; intros l; [done|]. split; [by left|apply IH]. Qed.
Lemma drops_short l (ops : list op) : length l + length ops < 273 -> drops_ok (A:=A) l ops.
Proof.
  revert l. induction ops as [|o ops IH]; intros l H; [done|]. simpl in H. split; [right; lia|]. apply IH.
  pose proof (spec_step_length l o). lia.
Qed.
Lemma run_app (T : tree) ops1 ops2 : run T (ops1 ++ ops2) =
  obind (run T ops1) (fun '(rs, T) => obind (run T ops2) (fun '(rs', T) => Ok (rs ++ rs', T))).
Proof.
  revert T. induction ops1 as [|o ops IH]; intros T; cbn [run app].
  - rewrite obind_Ok. destruct (run T ops2) as [[??]| | | |]; done.
  - destruct (step T o) as [[r T1]| | | |]; try done. rewrite !obind_Ok, IH.
    destruct (run T1 ops) as [[??]| | | |]; try done. rewrite !obind_Ok.
    destruct (run _ ops2) as [[??]| | | |]; done.
Qed.

Section Run.
Context (rl ri : nat) (SYNC : Prop) (Hrl : 1 <= rl <= 16) (Hri : ri <= 16).
Notation InvAt := (InvAt (A:=A) rl ri SYNC).

Definition op_fine (o : op) : Prop :=
  op_ok o /\ (is_remove o -> 1 <= ri) /\ (SYNC -> is_write o -> key_aug (K:=K) (V:=V) (A:=A)).

Lemma drop_height T h t : InvAt T h t -> drop_ok (A:=A) (flat t) -> aug_needs_drop (K:=K) (V:=V) (A:=A) = false \/ h <= 1.
Proof.
  intros HI [?|Hl]; [by left|]. right. destruct h as [|[|h]]; [lia|lia|]. exfalso.
  pose proof (root_size rl ri (S h) t (inv_shape _ _ _ _ _ _ HI)) as Hs. rewrite Nnat.Nat2N.inj_succ, N.pow_succ_r' in Hs.
  assert (1 <= 17 ^ N.of_nat h)%N by (apply N.lt_pred_le, N.neq_0_lt_0, N.pow_nonzero; done). lia.
Qed.
Lemma step_ok T h t o : InvAt T h t -> op_fine o -> (is_remove o -> drop_ok (A:=A) (flat t)) -> (N.of_nat (t_len T) < 2 ^ 64)%N ->
  exists T' h' t', step T o = Ok ((spec_step (flat t) o).1, T') /\ InvAt T' h' t' /\
    flat t' = (spec_step (flat t) o).2.
Proof.
  intros HI (Hok & Hrm & Hwr) Hd0 Hlen. assert (1 <= rl) as Hrl1 by lia. assert (rl <= 16) as Hrl2 by lia.
  destruct o as [k v|p|p|p f| | | | | | | | |c]; cbn [step spec_step fst snd].
  - destruct (insert_ok rl ri SYNC Hrl2 Hri T h t k v ord_true HI Hlen) as (T' & h' & t' & -> & HI' & E). exists T', h', t'. done.
  - pose proof (Hrm I) as Hri1. pose proof (drop_height T h t HI (Hd0 I)) as Hd.
    destruct (remove_ok rl ri SYNC Hrl2 (conj Hri1 Hri) T h t p ord_true HI Hok Hlen Hd) as (T' & h' & t' & -> & HI' & _ & E).
    exists T', h', t'. done.
  - destruct (get_ok rl ri SYNC Hrl1 T h t p ord_true HI Hok) as (c & E & HI'). rewrite E. by eexists _, h, t.
  - destruct (get_mut_ok rl ri SYNC Hrl1 T h t p f ord_true HI Hok (fun S => Hwr S I)) as (T' & t' & -> & HI' & E). exists T', h, t'. done.
  - rewrite (first_ok rl ri SYNC Hrl1 T h t HI). by exists T, h, t.
  - rewrite (last_ok rl ri SYNC Hrl1 T h t HI). by exists T, h, t.
  - exists T, h, t. by rewrite (inv_len _ _ _ _ _ _ HI).
  - exists T, h, t. split; [|done]. rewrite (is_empty_ok rl ri SYNC T h t HI). by destruct (flat t).
  - exists T, h, t. by rewrite (entries_ok rl ri SYNC Hrl1 T h t HI).
  - exists T, h, t. by rewrite (entries_rev_ok rl ri SYNC Hrl1 T h t HI).
  - rewrite (clear_ok rl ri SYNC Hrl1 T h t HI). eexists _, 0, _. split; [done|]. split; [by apply new_inv|done].
  - rewrite (tree_clone_ok rl ri SYNC Hrl1 T h t HI). by exists T, h, t.
  - eexists _, h, t. split; [done|]. split; [|done]. by apply inv_cache.
Qed.

Lemma run_ok T h t ops : InvAt T h t -> Forall op_fine ops -> fits (flat t) ops -> drops_ok (A:=A) (flat t) ops ->
  exists T' h' t', run T ops = Ok ((spec_run (flat t) ops).1, T') /\ InvAt T' h' t' /\
    flat t' = (spec_run (flat t) ops).2.
Proof.
  intros HI Hf Hlen Hdr. revert T h t HI Hlen Hdr. induction Hf as [|o ops Ho Hf IH]; intros T h t HI Hlen Hdr; cbn [run spec_run].
  { by exists T, h, t. }
  destruct Hlen as [Hlen Hrest]. destruct Hdr as [Hd Hdr]. rewrite <- (inv_len _ _ _ _ _ _ HI) in Hlen.
  destruct (step_ok T h t o HI Ho Hd Hlen) as (T1 & h1 & t1 & -> & HI1 & E1). rewrite obind_Ok.
  rewrite <- E1 in Hrest, Hdr. destruct (IH T1 h1 t1 HI1 Hrest Hdr) as (T' & h' & t' & -> & HI' & E').
  rewrite obind_Ok. exists T', h', t'. rewrite E1 in *. destruct (spec_step (flat t) o) as [r l]. cbn [fst snd] in *.
  destruct (spec_run l ops) as [rs l']. done.
Qed.
End Run.
End HistProof.
