(** Iterators, cursors, clear, clone and drop on a tree a program can hold. *)
From stdpp Require Import list sorting.
From Verif Require Import Base Slots BinSearch LeafNode InnerNode Store Tree Remove Iterators Observe Cursor Augment BulkLoad
  History SlotLemmas NodeLemmas Spec AugSpec Contents Order ContentsProof Logical Descent InsertProof InvLemmas InsertTop
  RemoveLeaf RemoveInner RemoveProof RemoveTop Lookup CursorProof IterProof IntoProof BulkProof BulkTop HistProof HistTop AugTop MapTop.

Section ReadTop.
Context {K V A : Type} {KO : KeyOps K} {PF : Profile} {OL : OrdLaws K} {AO : AugOps K V A}.
Notation tree := (tree K V A).
Implicit Types (l : list (K * V)).

(** ** [Iter] *)
Lemma two_walks_fwd l pre n : two_walks l pre (replicate n true) =
  map (fun i => (l !! i, length l - S i)) (seq 0 n).
Proof.
  revert l. induction n as [|n IH]; intros l; [done|]. cbn [replicate two_walks seq map].
  rewrite IH, <- seq_shift, map_map. f_equal.
  - destruct l; simpl; [done|]. f_equal. lia.
  - apply map_ext. intros i. destruct l; simpl; done.
Qed.
Lemma last_removelast_lookup l i : rev (removelast l) !! i = rev l !! S i.
Proof.
  destruct l as [|x l _] using rev_ind; [done|]. rewrite removelast_last, rev_app_distr. done.
Qed.
Lemma rev_lookup_0 l : rev l !! 0 = list.last l.
Proof. destruct l as [|x l _] using rev_ind; [done|]. by rewrite rev_app_distr, last_snoc. Qed.
Lemma two_walks_bwd l pre n : l <> [] \/ pre = [] -> map fst (two_walks l pre (replicate n false)) =
  map (fun i => rev pre !! i) (seq 0 n).
Proof.
  revert pre. induction n as [|n IH]; intros pre Hl; [done|]. cbn [replicate two_walks seq map].
  rewrite <- seq_shift, map_map. destruct l as [|x l].
  - destruct Hl as [?| ->]; [done|]. cbn [map fst]. rewrite IH by by right. f_equal.
  - cbn [map fst]. rewrite IH by by left. rewrite <- rev_lookup_0. f_equal. apply map_ext. intros i. apply last_removelast_lookup.
Qed.

Lemma two_walks_deque l rest pre mid ends : l = mid -> length ends <= length mid ->
  (exists a z, rest = mid ++ z /\ pre = a ++ mid) ->
  map fst (two_walks rest pre ends) = map fst (deque_drive mid ends).1.
Proof.
  intros _. revert rest pre mid. induction ends as [|e ends IH]; intros rest pre mid Hl (a & z & -> & ->); [done|].
  simpl in Hl. destruct e; cbn [two_walks deque_drive].
  - destruct mid as [|x mid]; [simpl in Hl; lia|]. simpl in Hl. cbn [app head tail].
    specialize (IH (mid ++ z) (a ++ x :: mid) mid ltac:(lia)). destruct (deque_drive mid ends) as [rs l'].
    cbn [map fst]. f_equal. apply IH. exists (a ++ [x]), z. by rewrite <- app_assoc.
  - destruct mid as [|x mid _] using rev_ind; [simpl in Hl; lia|]. rewrite app_length in Hl. simpl in Hl.
    rewrite removelast_last, last_snoc.
    specialize (IH ((mid ++ [x]) ++ z) (a ++ mid) mid ltac:(lia)). destruct (deque_drive mid ends) as [rs l'].
    destruct ((mid ++ [x]) ++ z) as [|y rest] eqn:E; [by destruct mid|]. rewrite <- E.
    cbn [map fst]. rewrite app_assoc, last_snoc, removelast_last. f_equal. rewrite E. apply IH.
    exists a, (x :: z). split; [|done]. rewrite <- E, <- app_assoc. done.
Qed.

(** Every call of a mix, by its position. *)
Lemma two_walks_nth (rest pre : list (K * V)) ends i :
  (ends !! i = Some true -> two_walks rest pre ends !! i =
     Some (rest !! calls true (take i ends), length rest - S (calls true (take i ends)))) /\
  (ends !! i = Some false -> calls true (take i ends) < length rest -> two_walks rest pre ends !! i =
     Some (rev pre !! calls false (take i ends), length rest - calls true (take i ends))) /\
  (ends !! i = Some false -> length rest <= calls true (take i ends) -> two_walks rest pre ends !! i = Some (None, 0)).
Proof.
  revert rest pre i. induction ends as [|e ends IH]; intros rest pre i; [done|].
  destruct i as [|i].
  - unfold calls. cbn [take filter length lookup list_lookup two_walks]. destruct e; split_and!; try done; intros _.
    + destruct rest; simpl; [done|]. by rewrite Nat.sub_0_r.
    + intros H. destruct rest as [|x rest]; [simpl in H; lia|]. change (list_lookup 0 ?l) with (head l).
      destruct pre as [|y pre _] using rev_ind; [done|]. by rewrite last_snoc, rev_unit.
    + intros H. destruct rest; [done|simpl in H; lia].
  - cbn [take]. destruct e; cbn [two_walks].
    + destruct (IH (tail rest) pre i) as (H1 & H2 & H3). unfold calls in *. rewrite !filter_cons, decide_True, decide_False by done.
      cbn [length]. change ((true :: ends) !! S i) with (ends !! i).
      change (((head rest, length (tail rest)) :: two_walks (tail rest) pre ends) !! S i) with (two_walks (tail rest) pre ends !! i).
      assert (forall j, tail rest !! j = rest !! S j) as Ht by (by destruct rest).
      assert (length (tail rest) = length rest - 1) as Hl by (destruct rest; simpl; lia).
      split_and!; intros E.
      * rewrite H1, Ht by done. do 2 f_equal. lia.
      * intros L. rewrite H2 by (done || lia). do 2 f_equal. lia.
      * intros L. apply H3; [done|lia].
    + change ((false :: ends) !! S i) with (ends !! i). destruct rest as [|x rest].
      * destruct (IH [] pre i) as (H1 & H2 & H3). unfold calls in *. rewrite !filter_cons, decide_False, decide_True by done.
        split_and!; intros E; [by apply H1|intros L; simpl in L; lia|intros _; apply H3; [done|simpl; lia]].
      * destruct (IH (x :: rest) (removelast pre) i) as (H1 & H2 & H3). unfold calls in *.
        rewrite !filter_cons, decide_False, decide_True by done.
        split_and!; intros E; [by apply H1| |by apply H3].
        intros L. etrans; [exact (H2 E L)|]. do 2 f_equal. cbn [length].
        destruct pre as [|y pre _] using rev_ind; [done|]. by rewrite removelast_last, rev_unit.
Qed.
Lemma two_walks_length (rest pre : list (K * V)) ends : length (two_walks rest pre ends) = length ends.
Proof.
  revert rest pre. induction ends as [|[|] ends IH]; intros rest pre; simpl; [done|by rewrite IH|].
  destruct rest; simpl; by rewrite IH.
Qed.

Lemma iter_start b (T : tree) l : reachable b T l -> exists it, iter_new T = Ok it /\ iter_size_hint it = length l /\
  forall ends, iter_drive T it ends = Ok (two_walks l l ends).
Proof.
  intros Hr. destruct (reachable_any False b T l Hr) as (ri & h & t & Hlow & _ & HI & <- & Ha & _); [done|].
  destruct (iter_new_ok (low b) ri False ltac:(lia) T h t HI) as (it & E & Hf & Hb). exists it. split; [done|].
  split; [by eapply (iter_size_ok (low b) ri False); [lia|done..]|]. intros ends.
  by apply (iter_drive_ok (low b) ri False ltac:(lia) T h t it).
Qed.

Lemma iter_fwd_ok b (T : tree) l : reachable b T l -> ascending l /\ exists it, iter_new T = Ok it /\ iter_size_hint it = length l /\
  forall n, iter_drive T it (replicate n true) = Ok (map (fun i => (l !! i, length l - S i)) (seq 0 n)).
Proof.
  intros Hr. split; [by eapply reachable_entries|]. destruct (iter_start b T l Hr) as (it & E1 & E2 & E3).
  exists it. split; [done|]. split; [done|]. intros n. by rewrite E3, two_walks_fwd.
Qed.
Lemma iter_bwd_ok b (T : tree) l : reachable b T l -> exists it, iter_new T = Ok it /\
  forall n, exists rs, iter_drive T it (replicate n false) = Ok rs /\ map fst rs = map (fun i => rev l !! i) (seq 0 n).
Proof.
  intros Hr. destruct (iter_start b T l Hr) as (it & E1 & E2 & E3).
  exists it. split; [done|]. intros n. eexists. split; [apply E3|]. apply two_walks_bwd. destruct l; auto.
Qed.
Lemma iter_mixed_ok b (T : tree) l : reachable b T l -> exists it, iter_new T = Ok it /\
  forall ends, length ends <= length l ->
    exists rs, iter_drive T it ends = Ok rs /\ map fst rs = map fst (deque_drive l ends).1.
Proof.
  intros Hr. destruct (iter_start b T l Hr) as (it & E1 & E2 & E3).
  exists it. split; [done|]. intros ends Hl. eexists. split; [apply E3|]. apply (two_walks_deque l); [done|done|].
  exists [], []. by rewrite app_nil_r.
Qed.

Lemma iter_moves_ok b (T : tree) l : reachable b T l -> exists it, iter_new T = Ok it /\ iter_size_hint it = length l /\
  forall ends, exists rs, iter_drive T it ends = Ok rs /\ length rs = length ends /\ forall i,
    let nexts := calls true (take i ends) in let backs := calls false (take i ends) in
    (ends !! i = Some true -> rs !! i = Some (l !! nexts, length l - S nexts)) /\
    (ends !! i = Some false -> nexts < length l -> rs !! i = Some (rev l !! backs, length l - nexts)) /\
    (ends !! i = Some false -> length l <= nexts -> rs !! i = Some (None, 0)).
Proof.
  intros Hr. destruct (iter_start b T l Hr) as (it & E1 & E2 & E3).
  exists it. split; [done|]. split; [done|]. intros ends. eexists. split; [apply E3|]. split; [apply two_walks_length|].
  intros i. apply two_walks_nth.
Qed.

(** ** [IntoIter] and drop *)
Lemma into_iter_ok b (T : tree) l : reachable b T l -> exists it, into_iter_new T = Ok it /\ ii_len it = length l /\
  forall ends, exists it', into_drive it ends = Ok ((deque_drive l ends).1, it') /\
    ii_len it' = length (deque_drive l ends).2 /\ into_iter_drop it' = Ok (deque_drive l ends).2.
Proof.
  intros Hr. destruct (reachable_any False b T l Hr) as (ri & h & t & Hlow & _ & HI & <- & Ha & _); [done|].
  destruct (into_new_ok (low b) ri False ltac:(lia) T h t HI) as (it & E & Hs & Es). exists it. split; [done|].
  assert (forall lo hi (it : into_iter K V A), instate (leaf_seq t) it lo hi -> ii_len it = length (sub (flat t) lo hi)) as Hlen.
  { intros lo hi it1 Hi. rewrite (in_len _ _ _ _ Hi), sub_length; [done|]. apply (in_range _ _ _ _ Hi). }
  split; [by rewrite (Hlen _ _ _ Hs), sub_all|]. intros ends.
  destruct (into_drive_ok (leaf_seq t) it 0 (length (flat t)) ends Hs) as (it' & lo & hi & Hs' & Ei & Ed & Er).
  fold (flat t) in Ed, Er. rewrite sub_all in Ed, Er. exists it'. split; [done|].
  split; [by rewrite <- Er, (Hlen _ _ _ Hs')|]. rewrite <- Er.
  apply (into_drop_ok (low b) ri False ltac:(lia) T h t it' lo hi HI Hs'). by rewrite Ei, Es.
Qed.

Lemma tree_drop_top b (T : tree) l : reachable b T l -> tree_drop T = Ok l.
Proof.
  intros Hr. destruct (reachable_any False b T l Hr) as (ri & h & t & Hlow & _ & HI & <- & Ha & _); [done|].
  eapply (tree_drop_ok (low b) ri False); [lia|done].
Qed.
Lemma clear_top b (T : tree) l : reachable b T l -> clear T = Ok tree_new.
Proof.
  intros Hr. destruct (reachable_any False b T l Hr) as (ri & h & t & Hlow & _ & HI & <- & Ha & _); [done|].
  eapply (clear_ok (low b) ri False); [lia|done].
Qed.
Lemma new_reachable : reachable SNew (tree_new : tree) [].
Proof.
  exists [], []. split; [|done]. split; [done|constructor|by split|done].
Qed.
Lemma clear_reach b (T : tree) l : reachable b T l ->
  clear T = Ok tree_new /\ reachable SNew (tree_new : tree) [] /\ reachable b (tree_new : tree) [].
Proof.
  intros Hr. pose proof (clear_top b T l Hr) as E. split; [done|]. split; [apply new_reachable|].
  destruct (reachable_step b T l OClear Hr I) as (T' & E' & Hr'); [done|done|].
  simpl in E'. rewrite E in E'. injection E' as <-. done.
Qed.
Lemma clone_top b (T : tree) l : reachable b T l -> tree_clone T = Ok T.
Proof.
  intros Hr. destruct (reachable_any False b T l Hr) as (ri & h & t & Hlow & _ & HI & <- & Ha & _); [done|].
  eapply (tree_clone_ok (low b) ri False); [lia|done].
Qed.
Lemma clone_reach b (T : tree) l : reachable b T l ->
  exists T', tree_clone T = Ok T' /\ reachable b T' l /\ entries T' = Ok l /\ t_len T' = t_len T /\ t_aug T' = t_aug T.
Proof.
  intros Hr. exists T. split; [by apply (clone_top b T l)|]. split; [done|]. split; [by apply (reachable_entries b)|done].
Qed.

(** ** Cursors *)
Lemma cursor_next_top b (T : tree) l c : reachable b T l -> exists r, cursor_next_with_value T c = Ok r /\
  above_is (c_key c) l ((fun cv => (c_key cv.1, cv.2)) <$> r).
Proof.
  intros Hr. destruct (reachable_any False b T l Hr) as (ri & h & t & Hlow & _ & HI & <- & Ha & _); [done|].
  destruct (cursor_next_ok (low b) ri False ltac:(lia) T h t c HI) as (r & E & Er). exists r. split; [done|].
  change (above_is (c_key c) (flat t) (at_entry <$> r)). rewrite Er. by apply spec_succ_above.
Qed.
Lemma cursor_prev_top b (T : tree) l c : reachable b T l -> exists r, cursor_prev_with_value T c = Ok r /\
  below_is (c_key c) l ((fun cv => (c_key cv.1, cv.2)) <$> r).
Proof.
  intros Hr. destruct (reachable_any False b T l Hr) as (ri & h & t & Hlow & _ & HI & <- & Ha & _); [done|].
  destruct (cursor_prev_ok (low b) ri False ltac:(lia) T h t c HI) as (r & E & Er). exists r. split; [done|].
  change (below_is (c_key c) (flat t) (at_entry <$> r)). rewrite Er. by apply spec_pred_below.
Qed.
Lemma cursor_value_top b (T : tree) l c : reachable b T l -> exists r, cursor_value T c = Ok r /\
  lookup_is (probe_key (c_key c)) l r /\ cursor_exists T c = Ok (match r with Some _ => true | None => false end).
Proof.
  intros Hr. destruct (reachable_any False b T l Hr) as (ri & h & t & Hlow & _ & HI & <- & Ha & _); [done|].
  pose proof (cursor_value_ok (low b) ri False ltac:(lia) T h t c HI) as E. eexists. split; [exact E|].
  split; [apply spec_get_lookup|]. unfold cursor_exists. by rewrite E.
Qed.
Lemma get_cursor_top b (T : tree) l k : reachable b T l -> exists c r, get_cursor T k = Ok (c, r) /\ c_key c = k /\
  lookup_is (probe_key k) l r.
Proof.
  intros Hr. destruct (reachable_any False b T l Hr) as (ri & h & t & Hlow & _ & HI & <- & Ha & _); [done|].
  destruct (get_cursor_ok (low b) ri False ltac:(lia) T h t k HI) as (c & E & Ek). do 2 eexists. split; [exact E|].
  split; [done|]. apply spec_get_lookup.
Qed.
Lemma cursor_ends_top b (T : tree) l : reachable b T l -> l <> [] ->
  exists c v d w, cursor_first_with_value T = Ok (Some (c, v)) /\ least_is l (Some (c_key c, v)) /\
    cursor_last_with_value T = Ok (Some (d, w)) /\ greatest_is l (Some (c_key d, w)) /\ cursor_first T = Ok (Some c).
Proof.
  intros Hr Hne. destruct (reachable_any False b T l Hr) as (ri & h & t & Hlow & _ & HI & <- & Ha & _); [done|].
  destruct (cursor_first_ok (low b) ri False ltac:(lia) T h t HI Hne) as ([c v] & E1 & E2).
  destruct (cursor_last_ok (low b) ri False ltac:(lia) T h t HI Hne) as ([d w] & E3 & E4).
  exists c, v, d, w. split; [done|]. unfold at_entry in E2, E4. cbn [fst snd] in E2, E4. rewrite E2, E4.
  split; [by apply head_least|]. split; [done|]. split; [by apply last_greatest|].
  unfold cursor_first. by rewrite E1.
Qed.
End ReadTop.
