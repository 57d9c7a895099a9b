(** The borrowing iterator. *)
From stdpp Require Import list sorting.
From Verif Require Import Base Slots BinSearch LeafNode InnerNode Store Tree Remove Iterators Observe
  SlotLemmas NodeLemmas Spec Order Logical Descent InsertProof InvLemmas InsertTop
  RemoveLeaf RemoveInner RemoveProof RemoveTop Lookup.

Section IterProof.
Context {K V A : Type} {KO : KeyOps K} {PF : Profile} {OM : OrdMode} {OI : OrdIf K} {AO : AugOps K V A}.
Notation tr := (tr K V).
Notation tree := (tree K V A).
Notation seg := (nat * list (K * V))%type.
Context (rl ri : nat) (SYNC : Prop) (Hrl1 : 1 <= rl).
Notation InvAt := (InvAt (A:=A) rl ri SYNC).

(** The front of the iterator stands before [rest]. *)
Definition fwd (t : tr) (it : iter) (rest : list (K * V)) : Prop :=
  it_len it = length rest /\
  (rest = [] \/ exists s1 id a b s2, leaf_seq t = s1 ++ (id, a ++ b) :: s2 /\
     it_leaf it = Some id /\ it_off it = length a /\ b <> [] /\ rest = b ++ concat (map snd s2)).

(** The back of the iterator stands after [pre]. *)
Definition bwd (t : tr) (it : iter) (pre : list (K * V)) : Prop :=
  (it_end it = None /\ pre = flat t) \/
  exists s1 id a b s2, leaf_seq t = s1 ++ (id, a ++ b) :: s2 /\
    it_end it = Some (id, length a) /\ pre = concat (map snd s1) ++ a.

Lemma iter_new_ok T h t : InvAt T h t ->
  exists it, iter_new T = Ok it /\ fwd t it (flat t) /\ bwd t it (flat t).
Proof.
  intros HI. destruct (first_leaf_ok rl ri SYNC Hrl1 T h t HI) as (id & kvs & rest & Es & E).
  unfold iter_new. rewrite E, obind_Ok. unfold get_leaf. rewrite (inv_leaf rl ri SYNC T h t [] _ _ _ HI Es), obind_Ok.
  eexists. split; [done|]. split.
  - split; [apply HI|]. destruct (decide (kvs = [])) as [->|Hk].
    + left. destruct (inv_segs rl ri SYNC Hrl1 T h t HI) as [[i Ei]|Ei].
      * unfold flat. by rewrite Ei.
      * rewrite Es in Ei. by apply Forall_cons in Ei as [? _].
    + right. exists [], id, [], kvs, rest. split_and!; try done. unfold flat. by rewrite Es.
  - by left.
Qed.

Lemma iter_next_ok T h t it rest : InvAt T h t -> fwd t it rest ->
  exists it', iter_next T it = Ok (head rest, it') /\ fwd t it' (tail rest) /\
    it_end it' = it_end it.
Proof.
  intros HI [Hl Hf]. unfold iter_next. destruct (decide (it_len it = 0)) as [H0|H0].
  { destruct rest; [|simpl in *; lia]. exists it. split_and!; try done. }
  destruct Hf as [->|(s1 & id & a & b & s2 & Es & El & Eo & Hb & Er)]; [done|].
  rewrite El. unfold get_leaf. rewrite (inv_leaf rl ri SYNC T h t s1 _ _ _ HI Es), obind_Ok.
  destruct b as [|kv b]; [done|]. rewrite Eo.
  rewrite (leaf_data_at_mk _ _ _ _ kv) by (by apply lookup_middle'). rewrite obind_Ok.
  cbn [l_size l_next mk_leaf]. subst rest. cbn [head tail app]. cbn [app length] in Hl.
  rewrite app_length. cbn [length].
  destruct (decide _) as [D|D].
  - eexists. split; [done|]. split; [|done]. split; [simpl; lia|]. right.
    exists s1, id, (a ++ [kv]), b, s2. rewrite <- app_assoc. split_and!; try done.
    + rewrite app_length. done.
    + destruct b; [simpl in D; lia|done].
  - destruct b as [|]; [|simpl in D; lia]. destruct s2 as [|[id2 kvs2] s2]; simpl hd_id; cbn iota.
    + eexists. split; [done|]. split; [|done]. split; [simpl in *; lia|]. by left.
    + assert (leaf_seq t = (s1 ++ [(id, a ++ [kv])]) ++ (id2, kvs2) :: s2) as Es2 by (by rewrite Es, <- app_assoc).
      rewrite (inv_leaf rl ri SYNC T h t _ _ _ _ HI Es2), obind_Ok.
      eexists. split; [done|]. split; [|done]. split; [simpl in *; lia|]. right.
      exists (s1 ++ [(id, a ++ [kv])]), id2, [], kvs2, s2. split_and!; try done.
      destruct (inv_segs rl ri SYNC Hrl1 T h t HI) as [[i Ei]|Ei].
      * rewrite Es in Ei. by destruct s1 as [|? [|]].
      * rewrite Es in Ei. apply Forall_app in Ei as [_ Ei]. apply Forall_cons in Ei as [_ Ei].
        by apply Forall_cons in Ei as [? _].
Qed.

Lemma iter_next_back_ok T h t it rest pre : InvAt T h t -> fwd t it rest -> bwd t it pre ->
  exists it', (rest <> [] -> iter_next_back T it = Ok (list.last pre, it') /\ bwd t it' (removelast pre)) /\
    (rest = [] -> iter_next_back T it = Ok (None, it')  /\ it' = it) /\
    fwd t it' rest /\ it_len it' = it_len it.
Proof.
  intros HI Hfw Hbw. destruct (decide (rest = [])) as [->|Hr].
  { exists it. split_and!; try done. intros _. unfold iter_next_back. destruct Hfw as [-> _]. done. }
  cut (exists it', iter_next_back T it = Ok (list.last pre, it') /\ bwd t it' (removelast pre) /\ fwd t it' rest /\ it_len it' = it_len it).
  { intros (it' & X1 & X2 & X3 & X4). exists it'. split_and!; done. }
  unfold iter_next_back. destruct (decide (it_len it = 0)) as [H0|H0].
  { destruct Hfw as [E _]. destruct rest; [done|simpl in *; lia]. }
  destruct (inv_segs rl ri SYNC Hrl1 T h t HI) as [[i Ei]|Ei].
  { exfalso. destruct Hfw as [_ [->|(s1 & id & a & b & s2 & Es & _ & _ & Hb & _)]]; [done|].
    rewrite Es in Ei. destruct s1 as [|? [|]]; try done. injection Ei as -> Ei _. by destruct a, b. }
  destruct Hbw as [[Ee ->]|(s1 & id & a & b & s2 & Es & Ee & ->)]; rewrite Ee.
  - destruct (last_leaf_ok rl ri SYNC Hrl1 T h t HI) as (id & kvs & s1 & Es & ->). rewrite obind_Ok.
    unfold get_leaf. rewrite (inv_leaf rl ri SYNC T h t s1 _ _ [] HI Es), obind_Ok.
    cbn [l_size mk_leaf]. rewrite Es in Ei. apply Forall_app in Ei as [_ Ei]. apply Forall_cons in Ei as [Ei _]. simpl in Ei.
    rewrite decide_False by (by destruct kvs).
    destruct (exists_last Ei) as (kvs' & kv & ->). rewrite app_length, Nat.add_sub.
    rewrite (leaf_data_at_mk _ _ _ _ kv) by (by apply lookup_middle'). rewrite obind_Ok.
    assert (flat t = (concat (map snd s1) ++ kvs') ++ [kv]) as Ef.
    { unfold flat. rewrite Es, map_app, concat_app. simpl. by rewrite app_nil_r, app_assoc. }
    rewrite Ef, last_snoc, removelast_last. eexists. split; [done|split; [|split; [exact Hfw|done]]].
    right. exists s1, id, kvs', [kv], []. split_and!; done.
  - unfold get_leaf at 1. rewrite (inv_leaf rl ri SYNC T h t s1 _ _ _ HI Es), obind_Ok. cbn [l_prev l_size mk_leaf].
    destruct a as [|x a _] using rev_ind.
    + rewrite decide_False by (simpl; lia). destruct s1 as [|[id1 kvs1] s1 _] using rev_ind.
      * cbn. exists it. split_and!; try done; try apply Hfw. right. exists [], id, [], b, s2. split_and!; done.
      * rewrite last_id_None. cbn [fst].
        assert (leaf_seq t = s1 ++ (id1, kvs1) :: (id, [] ++ b) :: s2) as Es' by (by rewrite Es, <- app_assoc).
        unfold get_leaf. rewrite (inv_leaf rl ri SYNC T h t s1 _ _ _ HI Es'), obind_Ok. cbn [l_size mk_leaf].
        rewrite Es' in Ei. apply Forall_app in Ei as [_ Ei]. apply Forall_cons in Ei as [Ei _]. simpl in Ei.
        destruct (exists_last Ei) as (kvs' & kv & ->). rewrite app_length, Nat.add_1_r. cbn [usize_pred]. rewrite obind_Ok.
        rewrite (leaf_data_at_mk _ _ _ _ kv) by (by apply lookup_middle'). rewrite obind_Ok.
        rewrite map_app, concat_app. cbn [map concat snd]. rewrite !app_nil_r, app_assoc, last_snoc, removelast_last.
        eexists. split; [done|split; [|split; [exact Hfw|done]]].
        right. exists s1, id1, kvs', [kv], ((id, [] ++ b) :: s2). split_and!; done.
    + rewrite app_length. cbn [length]. rewrite decide_True by lia. rewrite Nat.add_sub.
      rewrite (leaf_data_at_mk _ _ _ _ x) by (rewrite <- app_assoc; by apply lookup_middle'). rewrite obind_Ok.
      rewrite app_assoc, last_snoc, removelast_last.
      eexists. split; [done|split; [|split; [exact Hfw|done]]].
      right. exists s1, id, a, (x :: b), s2. split_and!; [by rewrite Es, <- app_assoc|done|done].
Qed.

(** ** Whole iterations *)
Lemma iter_collect_ok T h t it rest fuel : InvAt T h t -> fwd t it rest -> length rest < fuel ->
  iter_collect fuel T it = Ok rest.
Proof.
  intros HI. revert it rest. induction fuel as [|fuel IH]; intros it rest Hf Hl; [lia|]. cbn [iter_collect].
  destruct (iter_next_ok _ _ _ _ _ HI Hf) as (it' & -> & Hf' & _). rewrite obind_Ok.
  destruct rest as [|kv rest]; [done|]. cbn [head tail] in *. rewrite (IH it' rest Hf') by (simpl in *; lia). done.
Qed.

Lemma entries_ok T h t : InvAt T h t -> entries T = Ok (flat t).
Proof.
  intros HI. unfold entries. destruct (iter_new_ok _ _ _ HI) as (it & -> & Hf & _). rewrite obind_Ok.
  eapply iter_collect_ok; [done|done|]. rewrite (inv_len _ _ _ _ _ _ HI). lia.
Qed.

Lemma iter_rcollect_ok T h t it rest pre fuel : InvAt T h t -> fwd t it rest -> bwd t it pre -> rest <> [] ->
  length pre < fuel -> iter_rcollect fuel T it = Ok (rev pre).
Proof.
  intros HI. revert it pre. induction fuel as [|fuel IH]; intros it pre Hf Hb Hr Hl; [lia|]. cbn [iter_rcollect].
  destruct (iter_next_back_ok _ _ _ _ _ _ HI Hf Hb) as (it' & H1 & _ & Hf' & _). destruct (H1 Hr) as [-> Hb']. rewrite obind_Ok.
  destruct pre as [|kv pre _] using rev_ind; [done|]. rewrite last_snoc. rewrite removelast_last in Hb'.
  rewrite app_length in Hl. simpl in Hl.
  rewrite (IH it' pre Hf' Hb' Hr) by lia. rewrite rev_unit. done.
Qed.

Lemma entries_rev_ok T h t : InvAt T h t -> entries_rev T = Ok (rev (flat t)).
Proof.
  intros HI. unfold entries_rev. destruct (iter_new_ok _ _ _ HI) as (it & -> & Hf & Hb). rewrite obind_Ok.
  rewrite (inv_len _ _ _ _ _ _ HI). destruct (decide (flat t = [])) as [E|Hne].
  - cbn [iter_rcollect]. destruct (iter_next_back_ok _ _ _ _ _ _ HI Hf Hb) as (it' & _ & H1 & _).
    destruct (H1 E) as [-> _]. by rewrite E.
  - eapply iter_rcollect_ok; [done..|]. lia.
Qed.

(** The behaviour of any mix of calls: two independent walks, both stopped by
    the exhaustion of the front one. *)
Fixpoint two_walks (rest pre : list (K * V)) (ends : list bool) : list (option (K * V) * nat) :=
  match ends with
  | [] => []
  | true :: ends' => (head rest, length (tail rest)) :: two_walks (tail rest) pre ends'
  | false :: ends' =>
      match rest with
      | [] => (None, 0) :: two_walks rest pre ends'
      | _ => (list.last pre, length rest) :: two_walks rest (removelast pre) ends'
      end
  end.

Lemma iter_drive_ok T h t it rest pre ends : InvAt T h t -> fwd t it rest -> bwd t it pre ->
  iter_drive T it ends = Ok (two_walks rest pre ends).
Proof.
  intros HI. revert it rest pre. induction ends as [|[|] ends IH]; intros it rest pre Hf Hb; cbn [iter_drive two_walks]; [done|..].
  - destruct (iter_next_ok _ _ _ _ _ HI Hf) as (it' & -> & Hf' & He). rewrite obind_Ok.
    rewrite (IH it' (tail rest) pre); [|done|]. { unfold iter_size_hint. destruct Hf' as [-> _]. done. }
    destruct Hb as [[E ->]|(s1 & id & a & b & s2 & Es & E & ->)]; [left; by rewrite He|].
    right. exists s1, id, a, b, s2. by rewrite He.
  - destruct (iter_next_back_ok _ _ _ _ _ _ HI Hf Hb) as (it' & H1 & H2 & Hf' & Hl).
    unfold iter_size_hint. destruct rest as [|kv rest].
    + destruct (H2 eq_refl) as [-> ->]. rewrite obind_Ok. rewrite (IH it [] pre Hf Hb), obind_Ok.
      destruct Hf as [-> _]. done.
    + destruct H1 as [-> Hb']; [done|]. rewrite obind_Ok. rewrite (IH it' (kv :: rest) _ Hf' Hb'), obind_Ok.
      destruct Hf' as [-> _]. done.
Qed.

Lemma iter_size_ok T h t it : InvAt T h t -> iter_new T = Ok it -> iter_size_hint it = length (flat t).
Proof.
  intros HI E. destruct (iter_new_ok _ _ _ HI) as (it' & E' & [H _] & _).
  rewrite E in E'. injection E' as <-. done.
Qed.
End IterProof.
