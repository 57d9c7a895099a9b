(** The [Count] augmentation: positions and ranks. *)
From stdpp Require Import list sorting.
From Verif Require Import Base Slots BinSearch LeafNode InnerNode Store Tree Remove Iterators Augment BulkLoad History
  SlotLemmas NodeLemmas Spec AugSpec Order Logical Descent InsertProof InvLemmas InsertTop
  RemoveLeaf RemoveInner RemoveProof RemoveTop Lookup RefProof AugProof IterProof IntoProof HistProof HistTop AugTop.

Section CountProof.
Context {K V : Type} {KO : KeyOps K} {PF : Profile} {OL : OrdLaws K}.
Local Instance the_count : AugOps K V nat := count_aug.
Local Instance the_count_search : SearchOps K V nat nat := count_search.
Local Instance the_count_rank : RankOps K V nat nat := count_rank.
Notation tr := (tr K V).
Notation tree := (tree K V nat).

Lemma count_key_aug : key_aug (K:=K) (V:=V) (A:=nat).
Proof. by intros ks vs vs' _. Qed.

Lemma list_sum_lengths {X} (ls : list (list X)) : list_sum (map length ls) = length (concat ls).
Proof. induction ls as [|l ls IH]; simpl; [done|]. by rewrite app_length, IH. Qed.

Lemma count_of (t : tr) : aug_of (A:=nat) t = length (flat t).
Proof.
  induction t as [id kvs|id ks ch IH] using tr_ind'.
  - rewrite flat_leaf. simpl. by rewrite keysof_length.
  - rewrite flat_node. change (aug_of (TNode id ks ch)) with (list_sum (map aug_of ch)).
    rewrite <- list_sum_lengths, map_map. f_equal. apply map_ext_in. intros c Hc.
    rewrite Forall_forall in IH. apply IH. by apply elem_of_list_In.
Qed.

Lemma count_locate_ok (ch : list tr) i q :
  match count_locate_inner i q (map aug_of ch) with
  | None => length (concat (map flat ch)) <= q
  | Some (j, q') => exists cl c cr, ch = cl ++ c :: cr /\ j = i + length cl /\
      q = length (concat (map flat cl)) + q' /\ q' < length (flat c)
  end.
Proof.
  revert i q. induction ch as [|c ch IH]; intros i q; simpl; [lia|].
  rewrite count_of. destruct (decide (length (flat c) <= q)) as [H|H].
  - specialize (IH (S i) (q - length (flat c))). destruct (count_locate_inner _ _ _) as [[j q']|].
    + destruct IH as (cl & d & cr & -> & -> & E & Hq). exists (c :: cl), d, cr. simpl. split; [done|].
      rewrite app_length. lia.
    + rewrite app_length. lia.
  - exists [], c, ch. simpl. split; [done|]. lia.
Qed.

(** Position [q] in the list, if there is one. *)
Definition pos (l : list (K * V)) (q : nat) : option nat := if decide (q < length l) then Some q else None.

Lemma count_ref T h t q ri rl : InvAt (A:=nat) rl ri True T h t -> h <= MAX_DEPTH ->
  match pos (flat t) q with
  | None => get_ref_by_augmentation T q = Ok None
  | Some j => exists id kvs mA mB s1 s2 st off, reach t id kvs mA mB s1 s2 st /\
      get_ref_by_augmentation T q = Ok (Some (st, id, off)) /\
      off < length kvs /\ j = length (elems mA) + off
  end.
Proof.
  intros HI Hh. refine (ref_by_aug_inv (fun _ => True) pos _ _ _ rl ri T h t q HI I Hh).
  - intros _ kvs q' _. unfold pos. simpl. rewrite keysof_length. split; [done|]. by case_decide; intros ? [= <-].
  - intros id ks ch q' _. cbn [locate_in_inner the_count_search count_search].
    pose proof (count_locate_ok ch 0 q') as H. destruct (count_locate_inner 0 q' _) as [[j q2]|].
    + destruct H as (cl & c & cr & -> & -> & -> & Hq). exists cl, c, cr. split; [done|]. split; [done|].
      unfold pos. rewrite map_app, concat_app. simpl. rewrite !app_length.
      rewrite (decide_True (P:=q2 < _)) by done. by rewrite decide_True by lia.
    + unfold pos. by rewrite decide_False by lia.
  - intros id ks ch _. apply Forall_forall. done.
Qed.

Lemma count_root b T l : reachable (A:=nat) b T l -> t_aug T = length l.
Proof.
  intros Hr. destruct (reachable_any True b T l Hr (fun _ => count_key_aug)) as (ri & h & t & _ & _ & HI & <- & _).
  destruct (inv_aug _ _ _ _ _ _ HI I) as [->|[-> ->]]; [apply count_of|done].
Qed.

Lemma count_found b T l i : reachable (A:=nat) b T l ->
  if decide (i < length l) then found b T l i i else get_ref_by_augmentation T i = Ok None.
Proof.
  intros Hr. destruct (reachable_any True b T l Hr (fun _ => count_key_aug))
    as (ri & h & t & Hlow & Hri & HI & <- & _ & Hof & Hh).
  pose proof (count_ref T h t i ri (low b) HI Hh) as H. unfold pos in H. case_decide as Hi; [|done].
  destruct H as (id & kvs & mA & mB & s1 & s2 & st & off & R & E & Ho & Hj).
  by exists True, ri, h, t, id, kvs, mA, mB, s1, s2, st, off.
Qed.

Lemma count_get_ok b T l i : reachable (A:=nat) b T l -> get_by_augmentation T i = Ok (l !! i).
Proof.
  intros Hr. pose proof (count_found b T l i Hr) as H. case_decide as Hi.
  - destruct (found_get _ _ _ _ _ H) as (kv & -> & ->). done.
  - unfold get_by_augmentation. rewrite H. by rewrite lookup_ge_None_2 by lia.
Qed.

Lemma count_remove_ok b T l i : reachable (A:=nat) b T l -> orphan_free (length (spec_begin b)) ->
  exists T', remove_by_augmentation T i = Ok (l !! i, T') /\ reachable b T' (delete i l).
Proof.
  intros Hr Ho. pose proof (count_found b T l i Hr) as H. case_decide as Hi.
  - destruct (found_remove _ _ _ _ _ Hr (conj Ho (or_introl eq_refl)) H) as (kv & T' & -> & -> & Hr'). by exists T'.
  - exists T. unfold remove_by_augmentation. rewrite H. rewrite lookup_ge_None_2 by lia. split; [done|]. replace (delete i l) with l; [done|]. clear H. revert l Hr Hi. intros l _. revert i. induction l as [|x l IH]; intros [|i] Hi; simpl in *; try done; [lia|]. f_equal. apply IH. lia.
Qed.

Lemma count_get_mut_ok b T l i f : reachable (A:=nat) b T l ->
  exists T', get_mut_by_augmentation T i f = Ok (snd <$> l !! i, T') /\
    reachable b T' (alter (fun kv => (kv.1, f kv.2)) i l).
Proof.
  intros Hr. pose proof (count_found b T l i Hr) as H. case_decide as Hi.
  - destruct (found_get_mut _ _ _ _ _ f Hr H) as (k & v & T' & E & -> & Hr'). exists T'. rewrite E. split; [done|].
    replace (alter _ i l) with (<[i := (k, f v)]> l); [done|]. apply list_eq. intros j.
    destruct (decide (j = i)) as [->|Hne].
    + rewrite list_lookup_insert by lia. by rewrite list_lookup_alter, E.
    + rewrite list_lookup_insert_ne by done. by rewrite list_lookup_alter_ne.
  - exists T. unfold get_mut_by_augmentation. rewrite H. rewrite lookup_ge_None_2 by lia. split; [done|].
    replace (alter _ i l) with l; [done|]. apply list_eq. intros j.
    destruct (decide (j = i)) as [->|Hne].
    + by rewrite list_lookup_alter, lookup_ge_None_2 by lia.
    + by rewrite list_lookup_alter_ne.
Qed.

Lemma rank_lt k (l : list (K * V)) : Forall (fun x => kcmp x.1 k = Lt) l -> spec_rank k l = length l.
Proof. unfold spec_rank. induction 1 as [|[k' v'] l H _ IH]; simpl in *; [done|]. rewrite H. simpl. by rewrite IH. Qed.
Lemma rank_ge k (l : list (K * V)) : Forall (fun x => kcmp x.1 k <> Lt) l -> spec_rank k l = 0.
Proof. unfold spec_rank. induction 1 as [|[k' v'] l H _ IH]; simpl in *; [done|]. by destruct (kcmp k' k). Qed.
Lemma rank_app k (l1 l2 : list (K * V)) : spec_rank k (l1 ++ l2) = spec_rank k l1 + spec_rank k l2.
Proof. unfold spec_rank. by rewrite List.filter_app, app_length. Qed.

Lemma count_path k n (path : list (list tr)) :
  fold_path (A:=nat) k n path = n + length (concat (map flat (concat path))).
Proof.
  revert n. induction path as [|cl path IH]; intros n; simpl; [lia|].
  unfold fold_path in *. simpl. rewrite IH. cbn [fold_inner the_count_rank count_rank].
  rewrite map_app, concat_app, app_length. rewrite <- (list_sum_lengths (map flat cl)), map_map.
  rewrite (map_ext aug_of (fun t : tr => length (flat t))) by apply count_of. lia.
Qed.

Lemma count_rank_ok b T l k : reachable (A:=nat) b T l ->
  rank_by_augmentation T k = Ok (match spec_get (probe_key k) l with
    | Some _ => ROk (spec_rank k l) | None => RErr (spec_rank k l) end).
Proof.
  intros Hr. destruct (reachable_any True b T l Hr (fun _ => count_key_aug)) as (ri & h & t & _ & _ & HI & <- & _).
  destruct (rank_inv (low b) ri T h t k HI) as (path & id & kvs & mA & mB & s1 & s2 & st & r & R & FA & FB & _ & Ep & _ & Hx & ->).
  f_equal. cbn [fold_leaf the_count_rank count_rank]. rewrite count_path, Ep. cbn [initial_value the_count_rank count_rank].
  assert (flat t = elems mA ++ kvs ++ elems mB) as ->.
  { by rewrite <- elems_trav, (reach_trav _ _ _ _ _ _ _ _ R), !elems_app, elems_emark. }
  rewrite spec_get_mid by (eapply Forall_impl; [done|]; unfold probe_key; simpl; intros ? ->; done).
  rewrite !rank_app, (rank_lt k (elems mA)) by done.
  rewrite (rank_ge k (elems mB)) by (eapply Forall_impl; [done|]; simpl; intros ? ->; done).
  assert (forall p : list (K * V), Forall (fun x => kcmp x.1 k = Gt) p -> spec_rank k p = 0) as Hgt.
  { intros p Hp. apply rank_ge. eapply Forall_impl; [exact Hp|]. simpl. intros ? ->. done. }
  destruct r as [i|i].
  - destruct Hx as (a & k' & v & b' & -> & -> & Ha & Hk & Hb).
    rewrite (proj2 (spec_remove_hit (probe_key k) a k' v b' Ha Hk)). f_equal.
    rewrite rank_app, (rank_lt k a) by done. change ((k', v) :: b') with ([(k', v)] ++ b'). rewrite rank_app, (Hgt b') by done.
    unfold spec_rank. simpl. rewrite Hk. simpl. lia.
  - destruct Hx as (a & b' & -> & -> & Ha & Hb).
    rewrite (proj2 (spec_none (probe_key k) (a ++ b') ltac:(apply Forall_app; split; eapply Forall_impl; [exact Ha| |exact Hb|]; unfold probe_key; simpl; intros ? ->; done))).
    f_equal. rewrite rank_app, (rank_lt k a), (Hgt b') by done. lia.
Qed.
End CountProof.
