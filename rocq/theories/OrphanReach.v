(** Removals on every tree a program can hold: right, or stopped at a node that a
    bulk load left over. *)
From stdpp Require Import list sorting.
From Verif Require Import Base Slots BinSearch LeafNode InnerNode Store Tree Remove Iterators Observe
  BulkLoad History SlotLemmas NodeLemmas Spec AugSpec Order Logical Descent InsertProof InvLemmas InsertTop
  RemoveLeaf RemoveInner RemoveProof RemoveTop Lookup IterProof IntoProof BulkProof BulkTop HistProof HistTop ReadTop MapTop
  Augment RefProof AugTop CountProof OrphanAny.

Section OrphanReach.
Context {K V A : Type} {KO : KeyOps K} {PF : Profile} {OL : OrdLaws K} {AO : AugOps K V A}.
Notation tree := (tree K V A).

Lemma reachable_ret b (T : tree) l o r T' : reachable b T l -> op_ok o -> (is_remove o -> drop_ok (A:=A) l) ->
  (N.of_nat (length (spec_step l o).2) < 2 ^ 64)%N -> step T o = Ok (r, T') -> reachable b T' (spec_step l o).2.
Proof.
  intros (ops & rs & [L1 L2 L3 L4] & E & <-) Ho Hd Hn Es. exists (ops ++ [o]). eexists. split.
  { split; [done| | |].
    - apply Forall_app. split; [done|]. by constructor.
    - apply fits_app; [done|]. split; [by apply fits_end|]. done.
    - apply drops_app; [done|]. done. }
  split.
  - unfold exec in *. destruct (begin b) as [T0| | | |]; try done. rewrite obind_Ok in *.
    rewrite run_app, E, obind_Ok. cbn [run]. by rewrite Es.
  - unfold spec_exec. rewrite spec_run_app. cbn [spec_run]. by destruct (spec_step _ o).
Qed.

Lemma reachable_remove b (T : tree) l p : reachable b T l -> probe_ok p -> drop_ok (A:=A) l ->
  (exists T', remove T p = Ok (spec_get p l, T') /\ reachable b T' (spec_remove p l)) \/
  ~ orphan_free (length (spec_begin b)) /\ spec_get p l <> None /\
  (remove T p = Panic \/ dev = false /\ remove T p = UB).
Proof.
  intros Hr Hp Hd. pose proof (reachable_size _ _ _ Hr) as Hsz.
  destruct (reachable_any False b T l Hr) as (ri & h & t & Hlow & Hri & HI & Hf & Ha & Hof & Hh); [done|].
  destruct (remove_gen (low b) ri False ltac:(lia) Hri T h t p HI (fun _ => Hp))
    as [(Hz & Hg & j & _ & E)|(x & T1 & h1 & t1 & E & _ & _ & _ & Hs & _)].
  - by rewrite (inv_len _ _ _ _ _ _ HI), Hf.
  - apply (drop_height (low b) ri False ltac:(lia) Hri T h t HI). by rewrite Hf.
  - right. split; [|split].
    + intros Ho. specialize (Hof Ho). lia.
    + rewrite <- Hf. by apply Hg, ord_true.
    + by apply (stuck_is j).
  - left. destruct (Hs ord_true) as [-> E2]. rewrite Hf in *. exists T1. split; [done|].
    apply (reachable_ret b T l (ORemove p) (RVal (spec_get p l)) T1 Hr Hp (fun _ => Hd)).
    + cbn [spec_step snd]. pose proof (spec_remove_length p l). lia.
    + cbn [step]. by rewrite E.
Qed.

Lemma run_reach b (T : tree) l (ops : list (op K V)) : reachable b T l -> Forall op_ok ops -> fits l ops -> drops_ok (A:=A) l ops ->
  (exists T', run T ops = Ok ((spec_run l ops).1, T') /\ reachable b T' (spec_run l ops).2) \/
  ~ orphan_free (length (spec_begin b)) /\
  exists ops1 p ops2 T', ops = ops1 ++ ORemove p :: ops2 /\
    run T ops1 = Ok ((spec_run l ops1).1, T') /\ reachable b T' (spec_run l ops1).2 /\
    spec_get p (spec_run l ops1).2 <> None /\
    (run T ops = Panic \/ dev = false /\ run T ops = UB).
Proof.
  revert T l. induction ops as [|o ops IH]; intros T l Hr Ho Hf Hd; cbn [run spec_run].
  { left. by exists T. }
  apply Forall_cons in Ho as [Ho1 Ho2]. cbn [fits] in Hf. destruct Hf as [_ Hf]. cbn [drops_ok] in Hd. destruct Hd as [Hd1 Hd].
  assert (N.of_nat (length (spec_step l o).2) < 2 ^ 64)%N as Hn by (destruct ops; apply Hf).
  assert ((exists T1, step T o = Ok ((spec_step l o).1, T1) /\ reachable b T1 (spec_step l o).2) \/
    ~ orphan_free (length (spec_begin b)) /\ exists p, o = ORemove p /\ spec_get p l <> None /\
      (step T o = Panic \/ dev = false /\ step T o = UB)) as [(T1 & E1 & Hr1)|(Hof & p & -> & Hg & E1)].
  { assert (is_remove o \/ ~ is_remove o) as [Hrem|Hrem] by (destruct o; simpl; tauto).
    2: { left. by apply reachable_step. }
    destruct o as [|p| | | | | | | | | | | ]; try done.
    destruct (reachable_remove b T l p Hr Ho1 (Hd1 I)) as [(T1 & E & Hr1)|(Hof & Hg & E)].
    - left. exists T1. cbn [step spec_step fst snd]. by rewrite E.
    - right. split; [done|]. exists p. split; [done|]. split; [done|]. cbn [step]. destruct E as [->|[? ->]]; [by left|by right]. }
  2: { right. split; [done|]. exists [], p, ops, T. do 4 (split; [done|]). destruct E1 as [->|[? ->]]; [by left|by right]. }
  rewrite E1, obind_Ok. destruct (spec_step l o) as [r l1] eqn:Es. cbn [fst snd] in *.
  destruct (IH T1 l1 Hr1 Ho2 Hf Hd) as [(T2 & E2 & Hr2)|(Hof & ops1 & p & ops2 & T2 & -> & E2 & Hr2 & Hg & E3)].
  - left. rewrite E2, obind_Ok. destruct (spec_run l1 ops). cbn [fst snd] in *. by exists T2.
  - right. split; [done|]. exists (o :: ops1), p, ops2, T2. split; [done|]. cbn [run spec_run].
    rewrite E1, obind_Ok, E2, obind_Ok, Es. destruct (spec_run l1 ops1). cbn [fst snd] in *.
    do 3 (split; [done|]). destruct E3 as [->|[? ->]]; [by left|by right].
Qed.

Lemma exec_reach b (ops : list (op K V)) : start_ok b -> Forall op_ok ops -> fits (spec_begin b) ops ->
  drops_ok (A:=A) (spec_begin b) ops ->
  (exists T, exec (A:=A) b ops = Ok ((spec_exec b ops).1, T) /\ entries T = Ok (spec_exec b ops).2) \/
  ~ orphan_free (length (spec_begin b)) /\
  exists ops1 p ops2 T, ops = ops1 ++ ORemove p :: ops2 /\
    exec (A:=A) b ops1 = Ok ((spec_exec b ops1).1, T) /\ entries T = Ok (spec_exec b ops1).2 /\
    spec_get p (spec_exec b ops1).2 <> None /\
    (exec (A:=A) b ops = Panic \/ dev = false /\ exec (A:=A) b ops = UB).
Proof.
  intros Hb Ho Hf Hd. assert (N.of_nat (length (spec_begin b)) < 2 ^ 64)%N as Hn by (destruct ops; apply Hf).
  destruct (history_ok (A:=A) b []) as (T0 & E0 & _).
  { split; [done|constructor|done| |done]. intros H. inversion H. }
  assert (reachable b T0 (spec_begin b)) as Hr.
  { exists [], []. split; [by split|]. split; [|done]. exact E0. }
  assert (begin (A:=A) b = Ok T0) as EB.
  { unfold exec in E0. destruct (begin b); try done. rewrite obind_Ok in E0. cbn [run] in E0. by injection E0 as ->. }
  unfold exec, spec_exec. rewrite EB, obind_Ok.
  destruct (run_reach b T0 _ ops Hr Ho Hf Hd) as [(T & E & Hr')|(Hof & ops1 & p & ops2 & T & -> & E & Hr' & Hg & E')].
  - left. exists T. split; [done|]. by eapply reachable_entries.
  - right. split; [done|]. exists ops1, p, ops2, T. rewrite obind_Ok. do 2 (split; [done|]).
    split; [by eapply reachable_entries|]. done.
Qed.

Context {Q : Type} {SO : SearchOps K V A Q}.
Lemma found_remove_gen b (T : tree) l (q : Q) j : reachable b T l -> drop_ok (A:=A) l -> found b T l q j ->
  (exists kv T', l !! j = Some kv /\ remove_by_augmentation T q = Ok (Some kv, T') /\ reachable b T' (delete j l)) \/
  ~ orphan_free (length (spec_begin b)) /\ j < length l /\
  (remove_by_augmentation T q = Panic \/ dev = false /\ remove_by_augmentation T q = UB).
Proof.
  intros Hr Hrm (SYNC & ri & h & t & id & kvs & mA & mB & s1 & s2 & st & off & Hlow & Hri & HI & Hh & Hof & Hf & R & Ho & Hj & E).
  destruct (lookup_lt_is_Some_2 kvs off Ho) as [[k v] Hkv].
  assert (l !! j = Some (k, v)) as El by (by rewrite Hj, <- Hf, (reach_lookup _ _ _ _ _ _ _ _ _ R Ho)).
  assert (ascending l) as Ha by (rewrite <- Hf; by eapply inv_ascending).
  assert (aug_needs_drop (K:=K) (V:=V) (A:=A) = false \/ h <= 1) as Hdr.
  { apply (drop_height (low b) ri SYNC ltac:(lia) ltac:(lia) T h t HI). by rewrite Hf. }
  destruct (remove_by_ref_gen (low b) ri SYNC ltac:(lia) Hri T h t id kvs mA mB s1 s2 st off (k, v) HI R Hkv Hdr)
    as [(Hz & i & _ & E1)|(T1 & h1 & t1 & E1 & _)].
  - right. split; [intros Hfr; specialize (Hof Hfr); lia|]. split; [by apply lookup_lt_Some in El|].
    apply (stuck_is i). unfold remove_by_augmentation. rewrite E, obind_Ok, E1. apply stuck_bind.
  - left. exists (k, v), T1. split; [done|].
    assert (remove_by_augmentation T q = Ok (Some (k, v), T1)) as E2.
    { unfold remove_by_augmentation. by rewrite E, obind_Ok, E1. }
    split; [done|]. rewrite <- (spec_remove_at l j k v Ha El).
    apply (reachable_ret b T l (ORemove (probe_key k)) (RVal (Some v)) T1 Hr).
    + apply probe_key_ok.
    + done.
    + cbn [spec_step snd]. pose proof (spec_remove_length (probe_key k) l). pose proof (reachable_size _ _ _ Hr). lia.
    + cbn [step]. rewrite (remove_aug_at _ _ _ _ _ _ k v _ _ _ _ _ _ _ _ _ HI Hh R Hkv E) in E2.
      unfold remove. by rewrite E2.
Qed.
End OrphanReach.

Section OrphanCount.
Context {K V : Type} {KO : KeyOps K} {PF : Profile} {OL : OrdLaws K}.
Local Existing Instance CountProof.the_count.
Local Existing Instance CountProof.the_count_search.
Lemma count_remove_gen b (T : tree K V nat) l i : reachable b T l ->
  (exists T', remove_by_augmentation T i = Ok (l !! i, T') /\ reachable b T' (delete i l)) \/
  ~ orphan_free (length (spec_begin b)) /\ i < length l /\
  (remove_by_augmentation T i = Panic \/ dev = false /\ remove_by_augmentation T i = UB).
Proof.
  intros Hr. pose proof (count_found b T l i Hr) as H. case_decide as Hi.
  - destruct (found_remove_gen _ _ _ _ _ Hr (or_introl eq_refl) H) as [(kv & T' & E & E' & Hr')|?]; [|by right].
    left. exists T'. rewrite E. by split.
  - left. exists T. unfold remove_by_augmentation. rewrite H. rewrite lookup_ge_None_2 by lia. split; [done|].
    replace (delete i l) with l; [done|]. clear H Hr. revert i Hi.
    induction l as [|x l IH]; intros [|i] Hi; simpl in *; try done; [lia|]. f_equal. apply IH. lia.
Qed.
End OrphanCount.
